(** Launch profiles: C77. *)
From Coq Require Import String Sorting.Sorted.
From Verif Require Import Base.Tactics Base.Bytes Base.Ascii Base.Text Base.Sort Common.LaunchModel Common.LaunchSpec Common.LaunchProofs.
Local Open Scope N_scope.
Local Open Scope list_scope.

Lemma profile_eta : forall p, p = Profile (extends p) (own p).
Proof. now intros []. Qed.
Lemma missing_stops : forall s k x, leads s k x -> get s x = None -> exists n, stops s k n.
Proof.
  intros s k x H N0. induction H as [k x Sx|k z x Sz H IH].
  - exists 1%nat. apply (stops_later s k x); [exact Sx|]. constructor. intros y (q & G & _). congruence.
  - destruct (IH N0) as (n & T). exists (S n). now apply (stops_later s k z).
Qed.

(** A profile is resolved exactly if what it extends comes to an end, and it then has what it inherits. *)
Theorem C77_resolved_profiles : forall s k p, get s k = Some p ->
  (forall fuel o, resolve fuel s k p = Resolved o -> exists l, line s k l /\ inherited l o) /\
  (forall l, line s k l -> exists fuel o, resolve fuel s k p = Resolved o /\ inherited l o).
Proof.
  intros s k p G. rewrite (profile_eta p). split.
  - intros fuel o H. destruct (resolved_line s fuel k k p (own p) o G H) as (l & L & ->). exists (own p :: l). split; [exact L|apply inherited_under].
  - intros l L. destruct (line_stops s k l L) as (n & T). destruct (line_resolves s k k l L (stops_no_cycle s k n T) p (own p) G) as (l' & -> & R).
    exists (length (own p :: l')), (dedup (under l' (own p))). split; [exact R|apply inherited_under].
Qed.
(** It is said to extend itself exactly if it does, and to miss one exactly if it leads to one that is not there. *)
Theorem C77_rejected_profiles : forall s k p, get s k = Some p ->
  ((exists fuel k', resolve fuel s k p = ExtendsSelf k') <-> leads s k k) /\ (forall fuel k', resolve fuel s k p = ExtendsSelf k' -> k' = k) /\
  (forall x, (exists fuel, resolve fuel s k p = ExtendsMissing k x) <-> leads s k x /\ get s x = None).
Proof.
  intros s k p G. rewrite (profile_eta p). split; [split|split].
  - intros (fuel & k' & H). now apply (self_leads s fuel k k p (own p) k').
  - intros H. destruct (leads_self s k k H p (own p) G) as (fuel & R). eauto.
  - intros fuel k' H. now apply (self_leads s fuel k k p (own p) k').
  - intros x. split.
    + intros (fuel & H). destruct (missing_leads s fuel k k p (own p) k x G H) as (_ & N0 & L). auto.
    + intros (L & N0). destruct (missing_stops s k x L N0) as (n & T). apply (leads_missing s k x L N0 k (stops_no_cycle s k n T) p (own p) G).
Qed.
(** The loop does not end exactly for a profile that leads to a circle which it is not on. *)
Theorem C77_endless_profiles : forall s k p, get s k = Some p -> (forall fuel, resolve fuel s k p = Endless) <-> (exists x, leads s k x /\ leads s x x) /\ ~ leads s k k.
Proof.
  intros s k p G. rewrite (profile_eta p). split.
  - intros H. assert (NK : ~ leads s k k) by (intros L; destruct (leads_self s k k L p (own p) G) as (fuel & R); rewrite H in R; discriminate). split; [|exact NK].
    destruct (endless_walk s (length s) k k p (own p) G (H _)) as (l & W & Len & K). destruct (walk_repeats s k l W K) as (x & [->|L] & C); [lia|contradiction|eauto].
  - intros ((x & L & C) & NK) fuel. assert (NS : forall n, ~ stops s k n) by (intros n T; destruct (stops_leads s k x L n T) as (m & _ & M); now apply (stops_no_cycle s x m M)).
    destruct (resolve fuel s k (Profile (extends p) (own p))) as [o|k'|k' y|] eqn:R; [| | |reflexivity]; exfalso.
    + destruct (resolved_line s fuel k k p (own p) o G R) as (l & Ll & _). destruct (line_stops s k _ Ll) as (n & T). now apply (NS n).
    + apply NK. now apply (self_leads s fuel k k p (own p) k').
    + destruct (missing_leads s fuel k k p (own p) k' y G R) as (_ & N0 & Ly). destruct (missing_stops s k y Ly N0) as (n & T). now apply (NS n).
Qed.

(** ** All profiles *)
Lemma resolve_more : forall fuel s k p o, resolve fuel s k p = Resolved o -> forall fuel', (fuel <= fuel')%nat -> resolve fuel' s k p = Resolved o.
Proof.
  induction fuel as [|fuel IH]; intros s k p o H fuel' L; [discriminate|]. destruct fuel' as [|fuel']; [lia|]. cbn [resolve] in *. destruct (extends p) as [x|]; [|exact H].
  destruct (eqb_bytes x k); [discriminate|]. destruct (get s x); [|discriminate]. apply IH; [exact H|lia].
Qed.
Lemma get_in : forall {A} (s : list (text * A)) k p, NoDup (map fst s) -> In (k, p) s -> get s k = Some p.
Proof.
  intros A. induction s as [|(k', q) s IH]; intros k p D I; [destruct I|]. cbn [map fst] in D. inversion D as [|? ? N0 D']; subst. unfold get. cbn [find fst].
  destruct I as [I|I]; [injection I as -> ->; now rewrite eqb_bytes_refl|]. destruct (eqb_bytes k' k) eqn:E.
  - apply eqb_bytes_spec in E. subst k'. destruct N0. change k with (fst (k, p)). now apply in_map.
  - exact (IH k p D' I).
Qed.
Lemma in_get : forall {A} (s : list (text * A)) k p, get s k = Some p -> In (k, p) s.
Proof. intros A s k p G. unfold get in G. destruct (find _ s) as [[k' q]|] eqn:F; [|discriminate]. apply find_some in F as [I E]. apply eqb_bytes_spec in E. cbn in *. now injection G as <-; subst. Qed.
Lemma loaded_all : forall fuel s l r, load_all fuel s l = Loaded r -> Forall2 (fun p q => fst p = fst q /\ resolve fuel s (fst p) (snd p) = Resolved (snd q)) l r.
Proof.
  intros fuel s. induction l as [|(k, v) l IH]; intros r H; cbn [load_all] in H; [injection H as <-; constructor|].
  destruct (resolve fuel s k v) as [o| | |] eqn:R; try discriminate. destruct (load_all fuel s l) as [r'| |]; try discriminate. injection H as <-. constructor; auto.
Qed.
Lemma all_loaded : forall s l, (forall k v, In (k, v) l -> exists fuel o, resolve fuel s k v = Resolved o) -> exists fuel0, forall fuel, (fuel0 <= fuel)%nat -> exists r, load_all fuel s l = Loaded r.
Proof.
  intros s. induction l as [|(k, v) l IH]; intros H; [exists O; intros; now exists []|]. destruct IH as (f1 & IH); [intros; apply H; now right|].
  destruct (H k v (or_introl eq_refl)) as (f2 & o & R). exists (Nat.max f1 f2). intros fuel L. destruct (IH fuel) as (r & E); [lia|]. cbn [load_all].
  rewrite (resolve_more f2 s k v o R fuel) by lia. rewrite E. eauto.
Qed.

Lemma forall2_left : forall {A B} (R : A -> B -> Prop) l r x, Forall2 R l r -> In x l -> exists y, In y r /\ R x y.
Proof. intros A B R l r x H. induction H as [|a b l r E H IH]; intros I; [destruct I|]. destruct I as [<-|I]; [exists b; split; [now left|exact E]|]. destruct (IH I) as (y & J & K). exists y. split; [now right|exact K]. Qed.
Lemma forall2_right : forall {A B} (R : A -> B -> Prop) l r y, Forall2 R l r -> In y r -> exists x, In x l /\ R x y.
Proof. intros A B R l r y H. induction H as [|a b l r E H IH]; intros I; [destruct I|]. destruct I as [<-|I]; [exists a; split; [now left|exact E]|]. destruct (IH I) as (x & J & K). exists x. split; [now right|exact K]. Qed.
Lemma forall2_names : forall {A B} (R : text * A -> text * B -> Prop) l r, (forall p q, R p q -> fst p = fst q) -> Forall2 R l r -> map fst r = map fst l.
Proof. intros A B R l r F H. induction H as [|p q l r E H IH]; [reflexivity|]. cbn [map]. now rewrite (F _ _ E), IH. Qed.

(** The profiles are accepted exactly if each extends its way to an end; then each is there, with what it inherits. *)
Theorem C77_accepted_profiles : forall s, NoDup (map fst s) -> ((exists fuel r, load fuel s = Loaded r) <-> forall k, get s k <> None -> exists l, line s k l).
Proof.
  intros s D. split.
  - intros (fuel & r & H) k K. apply loaded_all in H. destruct (get s k) as [p|] eqn:G; [|contradiction]. apply in_get in G as I.
    assert (exists o, resolve fuel s k p = Resolved o) as (o & R).
    { destruct (forall2_left _ _ _ _ H I) as (q & _ & _ & R). eauto. }
    destruct (proj1 (C77_resolved_profiles s k p G) fuel o R) as (l & L & _). eauto.
  - intros H. destruct (all_loaded s s) as (fuel & L).
    + intros k p I. assert (G := get_in s k p D I). destruct (H k) as (l & Hl); [congruence|]. destruct (proj2 (C77_resolved_profiles s k p G) l Hl) as (fuel & o & R & _). eauto.
    + exists fuel. apply L. lia.
Qed.
Theorem C77_loaded_profiles : forall s fuel r, NoDup (map fst s) -> load fuel s = Loaded r -> map fst r = map fst s /\
  forall k o, get r k = Some o <-> exists l, line s k l /\ inherited l o.
Proof.
  intros s fuel r D H. apply loaded_all in H. assert (E : map fst r = map fst s).
  { apply (forall2_names _ _ _ (fun p q R => proj1 R) H). }
  split; [exact E|]. assert (K : forall k o, In (k, o) r -> exists l, line s k l /\ inherited l o).
  { intros k o I. assert (exists p, In (k, p) s /\ resolve fuel s k p = Resolved o) as (p & Ip & R).
    { destruct (forall2_right _ _ _ _ H I) as ((k', p) & J & E' & R). cbn in *. subst. eauto. }
    exact (proj1 (C77_resolved_profiles s k p (get_in s k p D Ip)) fuel o R). }
  intros k o. split; [intros G; apply K; now apply in_get|]. intros (l & L & J). apply get_in; [now rewrite E|].
  assert (I : In k (map fst r)). { rewrite E. inversion L as [? p G _|? p ? ? G _]; subst; eapply known_in; eauto. }
  apply in_map_iff in I as ((k', o') & <- & I). cbn. destruct (K _ _ I) as (l' & L' & J'). assert (l' = l) by (eapply line_same; eauto). subst l'.
  now rewrite (inherited_same l o o' J J').
Qed.
(** What is reported is so. *)
Theorem C77_reported_profiles : forall s fuel e, NoDup (map fst s) -> load fuel s = Failed e ->
  (exists k, e = ExtendsSelf k /\ leads s k k) \/ (exists k x, e = ExtendsMissing k x /\ leads s k x /\ get s x = None).
Proof.
  intros s fuel e D H. unfold load in H. assert (exists k p, In (k, p) s /\ resolve fuel s k p = e /\ e <> Endless /\ forall o, e <> Resolved o) as (k & p & I & R & NE & NR).
  { revert H. generalize s at 2 3 as l. induction l as [|(k, v) l IH]; cbn [load_all]; intros H; [discriminate|]. destruct (resolve fuel s k v) as [o|k'|k' x|] eqn:R; try discriminate.
    - destruct (load_all fuel s l) as [r'|e'|]; try discriminate. injection H as ->. destruct (IH eq_refl) as (k1 & p1 & I & R1). exists k1, p1. split; [now right|exact R1].
    - injection H as <-. exists k, v. repeat split; [now left|exact R|discriminate|discriminate].
    - injection H as <-. exists k, v. repeat split; [now left|exact R|discriminate|discriminate]. }
  assert (G := get_in s k p D I). destruct (C77_rejected_profiles s k p G) as (A & B & C). destruct e as [o|k'|k' x|]; [destruct (NR o eq_refl)| |right|destruct (NE eq_refl)].
  - left. exists k. rewrite (B fuel k' R). split; [reflexivity|]. apply A. eauto.
  - rewrite (profile_eta p) in R. destruct (missing_leads s fuel k k p (own p) k' x G R) as (-> & N0 & L). eauto.
Qed.
(** The order in which the hash map gives the profiles makes no difference to those accepted. *)
Theorem C77_order_of_profiles : forall s s' fuel fuel' r r', NoDup (map fst s) -> Permutation s s' -> load fuel s = Loaded r -> load fuel' s' = Loaded r' -> forall k, get r k = get r' k.
Proof.
  intros s s' fuel fuel' r r' D P H H' k. assert (D' : NoDup (map fst s')) by (eapply Permutation_NoDup; [apply Permutation_map, P|exact D]).
  assert (G : forall k, get s k = get s' k).
  { intros x. destruct (get s x) as [p|] eqn:E.
    - apply in_get in E. symmetry. apply get_in; [exact D'|]. now apply (Permutation_in _ P).
    - destruct (get s' x) as [p|] eqn:E'; [|reflexivity]. apply in_get in E'. assert (X := get_in s x p D (Permutation_in _ (Permutation_sym P) E')). congruence. }
  assert (L : forall x l, line s x l <-> line s' x l).
  { intros x l. split; intros K; induction K; [constructor|econstructor|constructor|econstructor]; eauto; congruence. }
  destruct (C77_loaded_profiles s fuel r D H) as [_ A]. destruct (C77_loaded_profiles s' fuel' r' D' H') as [_ B].
  destruct (get r k) as [o|] eqn:E.
  - apply A in E as (l & Hl & J). symmetry. apply B. exists l. split; [now apply L|exact J].
  - destruct (get r' k) as [o|] eqn:E'; [|reflexivity]. apply B in E' as (l & Hl & J). assert (X : get r k = Some o) by (apply A; exists l; split; [now apply L|exact J]). congruence.
Qed.

(** ** Choosing profiles *)
Lemma gathered : forall l names acc ps o, combined ps acc -> gather l acc names = inl o -> exists qs, Forall2 (fun n q => get l n = Some q) names qs /\ combined (ps ++ qs) o.
Proof.
  assert (K : forall {A} (f : options -> option A), (forall a b, f (overlay a b) = over (f a) (f b)) -> forall ps acc q, last_set f ps acc -> last_set f (ps ++ [q]) (overlay acc q)).
  { intros A f H ps acc q L v. rewrite H. unfold over. destruct (f q) as [b|] eqn:E.
    - split.
      + intros [= ->]. exists ps, q, []. repeat split; auto. intros ? [].
      + intros (l1 & p & l2 & X & V & F). destruct l2 as [|y l2] using rev_ind; [apply app_inj_tail in X as [_ <-]; congruence|]. clear IHl2.
        rewrite app_comm_cons, app_assoc in X. apply app_inj_tail in X as [_ <-]. rewrite (F q) in E; [discriminate|]. apply in_app_iff. right. now left.
    - rewrite (L v). split.
      + intros (l1 & p & l2 & -> & V & F). exists l1, p, (l2 ++ [q]). rewrite <- app_assoc. repeat split; auto. intros x I. apply in_app_iff in I as [I|[<-|[]]]; auto.
      + intros (l1 & p & l2 & X & V & F). destruct l2 as [|y l2] using rev_ind; [apply app_inj_tail in X as [_ <-]; congruence|]. clear IHl2.
        rewrite app_comm_cons, app_assoc in X. apply app_inj_tail in X as [-> _]. exists l1, p, l2. repeat split; auto. intros x I. apply F. apply in_app_iff. now left. }
  intros l. induction names as [|n names IH]; intros acc ps o C H; cbn [gather] in H.
  - injection H as <-. exists []. rewrite app_nil_r. split; [constructor|exact C].
  - destruct (get l n) as [q|] eqn:G; [|discriminate]. destruct (IH (overlay acc q) (ps ++ [q]) o) as (qs & F & R); [|exact H|].
    + destruct C as [c1 c2 c3 c4 c5 c6 c7 c8 c9 c10 c11]. split; try (apply K; [reflexivity|assumption]);
        cbn [overlay workshop dlc presets optionals parameters]; rewrite flat_map_app; cbn [flat_map]; rewrite app_nil_r; congruence.
    + exists (q :: qs). split; [now constructor|]. now rewrite <- app_assoc in R.
Qed.
Lemma gather_unknown : forall l names acc n, gather l acc names = inr n <-> exists a b, names = a ++ n :: b /\ get l n = None /\ forall x, In x a -> get l x <> None.
Proof.
  intros l. induction names as [|m names IH]; intros acc n; cbn [gather].
  - split; [discriminate|]. intros ([|] & b & E & _); discriminate.
  - destruct (get l m) as [q|] eqn:G.
    + rewrite IH. split; intros (a & b & E & N0 & F).
      * exists (m :: a), b. rewrite E. repeat split; auto. intros x [<-|I]; [congruence|auto].
      * destruct a as [|y a]; injection E as E1 E2; [congruence|]. subst y. exists a, b. repeat split; auto. intros x I. apply F. now right.
    + split.
      * intros [= <-]. exists [], names. repeat split; auto.
      * intros (a & b & E & N0 & F). destruct a as [|y a]; injection E as E1 E2; [congruence|]. subst y. exfalso. apply (F m); [now left|exact G].
Qed.
(** Of the profiles named on the command line the first unknown one is reported; otherwise the options are theirs combined. Without
    any, they are those of the profile [default]. *)
Theorem C77_chosen_profiles : forall l,
  read_config l [] = inl (match get l (bs "default") with Some o => o | None => no_options end) /\ forall names, names <> [] ->
  (forall o, read_config l names = inl o -> exists qs, Forall2 (fun n q => get l n = Some q) names qs /\ combined qs o) /\
  (forall n, read_config l names = inr n <-> exists a b, names = a ++ n :: b /\ get l n = None /\ forall x, In x a -> get l x <> None).
Proof.
  intros l. split; [reflexivity|]. intros names N0. assert (E : read_config l names = gather l no_options names) by (destruct names; [contradiction|reflexivity]). rewrite E. split; [|apply gather_unknown].
  intros o H. apply (gathered l names no_options [] o); [|exact H].
  assert (Z : forall {A} (f : options -> option A), f no_options = None -> last_set f [] no_options).
  { intros A f F v. rewrite F. split; [discriminate|]. intros (l1 & p & l2 & X & _). destruct l1; discriminate. }
  split; try reflexivity; now apply Z.
Qed.
Print Assumptions C77_resolved_profiles.
Print Assumptions C77_rejected_profiles.
Print Assumptions C77_endless_profiles.
Print Assumptions C77_accepted_profiles.
Print Assumptions C77_loaded_profiles.
Print Assumptions C77_reported_profiles.
Print Assumptions C77_order_of_profiles.
Print Assumptions C77_chosen_profiles.

(** ** Cases *)
Definition of_list (e : option string) (w : list string) (m : option string) (b : option bool) : profile :=
  Profile (option_map bs e) (Options (map bs w) [1] [] [] [] (option_map bs m) None b None None None).
Definition tree : profiles :=
  [(bs "vn", of_list (Some "ace"%string) ["450814997"%string] None (Some true)); (bs "ace", of_list (Some "default"%string) ["463939057"; "2"]%string (Some "a.VR"%string) (Some false));
   (bs "default", of_list None ["450814997"%string] (Some "b.VR"%string) None)].
Example C77_case : NoDup (map fst tree) /\ (forall k, get tree k <> None -> exists l, line tree k l) /\
  exists r, load 4 tree = Loaded r /\ get r (bs "vn") = Some (Options (map bs ["2"; "450814997"; "463939057"]%string) [1] [] [] [] (Some (bs "a.VR")) None (Some true) None None None).
Proof.
  split; [repeat constructor; cbn; intuition discriminate|]. assert (H : exists r, load 4 tree = Loaded r /\
    get r (bs "vn") = Some (Options (map bs ["2"; "450814997"; "463939057"]%string) [1] [] [] [] (Some (bs "a.VR")) None (Some true) None None None)) by (eexists; split; vm_compute; reflexivity).
  split; [|exact H]. apply (C77_accepted_profiles tree); [repeat constructor; cbn; intuition discriminate|]. destruct H as (r & H & _). eauto.
Qed.
(** A profile that extends one of two that extend each other: met first it keeps the program busy for ever; met later, the circle is
    reported before. *)
Definition circle : profiles := [(bs "c", of_list (Some "a"%string) [] None None); (bs "a", of_list (Some "b"%string) [] None None); (bs "b", of_list (Some "a"%string) [] None None)].
Theorem C77_circle_refuted : (forall fuel, load fuel circle = Hangs) /\ forall fuel, (2 <= fuel)%nat -> exists s, Permutation circle s /\ load fuel s = Failed (ExtendsSelf (bs "a")).
Proof.
  split.
  - intros fuel. unfold load, circle at 2. cbn [load_all]. rewrite (proj2 (C77_endless_profiles circle (bs "c") (of_list (Some "a"%string) [] None None) eq_refl)); [reflexivity|].
    assert (C : step circle (bs "c") (bs "a")) by (eexists; split; reflexivity). assert (A : step circle (bs "a") (bs "b")) by (eexists; split; reflexivity).
    assert (B : step circle (bs "b") (bs "a")) by (eexists; split; reflexivity). split; [exists (bs "a"); split; [now constructor|eapply leads_more; [exact A|now constructor]]|].
    assert (N0 : forall x y, leads circle x y -> (x = bs "a" \/ x = bs "b" \/ x = bs "c") -> y = bs "a" \/ y = bs "b").
    { intros x y H. induction H as [x y S|x z y S H IH]; intros [->|[->| ->]]; try apply IH;
        first [rewrite (step_same circle _ _ _ S A); tauto|rewrite (step_same circle _ _ _ S B); tauto|rewrite (step_same circle _ _ _ S C); tauto]. }
    intros L. destruct (N0 _ _ L) as [X|X]; [tauto|discriminate|discriminate].
  - intros fuel L. exists (tl circle ++ [hd (bs "", of_list None [] None None) circle]). split; [apply (Permutation_cons_append (tl circle) (hd (bs "", of_list None [] None None) circle))|].
    destruct fuel as [|[|fuel]]; try lia. vm_compute. reflexivity.
Qed.
Print Assumptions C77_circle_refuted.
