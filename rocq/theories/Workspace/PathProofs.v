(** Lemmas for C79. *)
From Coq Require Import String Permutation.
From Verif Require Import Base.Tactics Base.Bytes Base.Ascii Base.Text Base.Sort Common.VersionModel Workspace.PathModel Workspace.PathSpec.
Local Open Scope N_scope.
Local Open Scope list_scope.

(** ** Letters *)
Lemma lower_app a b : ascii_lower (a ++ b) = ascii_lower a ++ ascii_lower b.
Proof. apply map_app. Qed.
Lemma lower_length a : length (ascii_lower a) = length a.
Proof. apply map_length. Qed.
Lemma lower_slash c : (if (65 <=? c) && (c <=? 90) then c + 32 else c) = 47 <-> c = 47.
Proof. destruct (N.leb_spec 65 c), (N.leb_spec c 90); cbn [andb]; lia. Qed.
Lemma same_length a b : same a b -> length a = length b.
Proof. unfold same. intros H. apply (f_equal (@length N)) in H. now rewrite !lower_length in H. Qed.
Lemma same_slash a b : same a b -> In 47 a -> In 47 b.
Proof.
  unfold same. revert b. induction a as [|x a IH]; intros [|y b] E I; try discriminate E; [exact I|]. cbn in E. injection E as Ex Ea. destruct I as [->|I]; [left|right; eauto].
  apply lower_slash. rewrite <- Ex. now apply lower_slash.
Qed.
Lemma split_lower a : split_on 47 (ascii_lower a) = map ascii_lower (split_on 47 a).
Proof.
  induction a as [|x a IH]; [reflexivity|]. cbn [ascii_lower map split_on]. fold (ascii_lower a). rewrite IH. set (y := if (65 <=? x) && (x <=? 90) then x + 32 else x).
  assert (y =? 47 = (x =? 47)) as ->. { apply Bool.eq_iff_eq_true. rewrite !N.eqb_eq. apply lower_slash. }
  destruct (x =? 47); [reflexivity|]. destruct (split_on 47 a) as [|p ps]; reflexivity.
Qed.

(** ** Below a prefix *)
Lemma under_test base s : starts_with (ascii_lower base ++ [47]) (ascii_lower s) = true <-> exists rest, under base s rest.
Proof.
  rewrite starts_with_spec. split.
  - intros (r & E). rewrite <- app_assoc in E. apply map_eq_app in E as (b & t & -> & Eb & Et). cbn [app] in Et. destruct t as [|c t]; [discriminate Et|]. cbn in Et. injection Et as Ec _. apply (proj1 (lower_slash c)) in Ec. rewrite Ec. exists t, b. auto.
  - intros (rest & b & -> & E). exists (ascii_lower rest). rewrite lower_app, E. cbn [ascii_lower map]. rewrite <- app_assoc. reflexivity.
Qed.
Lemma under_strip base s rest : under base s rest -> strip_ci base s = Some (47 :: rest).
Proof.
  intros (b & -> & E). assert (L := same_length _ _ E). unfold strip_ci. destruct (Nat.ltb_spec (length (b ++ 47 :: rest)) (length base)) as [K|_]; [rewrite app_length in K; lia|].
  rewrite <- L. replace (length b) with (length b + 0)%nat by lia. rewrite firstn_app_2. cbn [firstn]. rewrite app_nil_r. unfold same in E. rewrite E, eqb_bytes_refl. f_equal.
  rewrite skipn_app, skipn_all2 by lia. replace (length b + 0 - length b)%nat with 0%nat by lia. reflexivity.
Qed.
Lemma under_fun base s r1 r2 : under base s r1 -> under base s r2 -> r1 = r2.
Proof. intros A B. apply under_strip in A, B. congruence. Qed.

(** ** The vfs *)
Lemma steps_fold base cs v : steps base cs v <-> fold_left vfs_step cs base = v.
Proof.
  split.
  - induction 1 as [v|v c cs u [-> | ->] S IH|v cs u S IH|v c cs u N1 N2 N3 S IH]; cbn [fold_left]; [reflexivity|exact IH|exact IH|exact IH|].
    unfold vfs_step at 2. apply eqb_bytes_false in N1, N2, N3. change (bs ".") with [46] in N2. change (bs "..") with [46; 46] in N3. now rewrite N1, N2, N3.
  - revert base. induction cs as [|c cs IH]; intros base E; cbn [fold_left] in E; [subst; constructor|]. unfold vfs_step in E at 2.
    destruct (eqb_bytes c []) eqn:E1; [apply eqb_bytes_spec in E1; apply stay; auto|]. destruct (eqb_bytes c [46]) eqn:E2; [apply eqb_bytes_spec in E2; apply stay; auto|].
    destruct (eqb_bytes c [46; 46]) eqn:E3; [apply eqb_bytes_spec in E3; subst c; apply up; auto|]. apply eqb_bytes_false in E1, E2, E3. apply down; auto.
Qed.
Lemma ends_slash_spec s : ends_slash s = false <-> (s = [47] \/ ~ exists a, s = a ++ [47]).
Proof.
  unfold ends_slash. destruct (rev s) as [|c r] eqn:E.
  - apply (f_equal (@rev N)) in E. rewrite rev_involutive in E. cbn in E. subst s. split; [intros _; right; intros ([|] & K); discriminate|reflexivity].
  - apply (f_equal (@rev N)) in E. rewrite rev_involutive in E. cbn [rev] in E. destruct r as [|d r].
    + cbn [rev app] in E. subst s. split; [intros _|reflexivity]. destruct (N.eq_dec c 47) as [->|N]; [now left|right]. intros (a & K). change [c] with ([] ++ [c]) in K. apply app_inj_tail in K as [_ K]. now apply N.
    + split.
      * intros N. right. intros (a & K). rewrite E in K. apply app_inj_tail in K as [_ K]. rewrite K in N. discriminate N.
      * intros [K|K].
        -- rewrite E in K. apply (f_equal (@length N)) in K. rewrite app_length, rev_length in K. cbn in K. lia.
        -- apply N.eqb_neq. intros ->. apply K. exists (rev (d :: r)). exact E.
Qed.
Lemma some_iff {A} (a b : A) : Some a = Some b <-> a = b.
Proof. split; [now intros [= ->]|congruence]. Qed.
Lemma join_leads base s v : vfs_join base s = Some v <-> leads base s v.
Proof.
  unfold vfs_join, leads. rewrite <- ends_slash_spec, steps_fold. destruct s as [|c s].
  - cbn. split; [intros E; injection E as ->; auto|intros [_ ->]; reflexivity].
  - assert (starts_with [47] (c :: s) = (c =? 47)) as -> by (cbn [starts_with]; rewrite Bool.andb_true_r; apply N.eqb_sym). destruct (ends_slash (c :: s)); [split; [discriminate|intros [K _]; discriminate K]|]. rewrite some_iff. tauto.
Qed.

(** ** Text of paths *)
Lemma as_str_cons c cs : as_str (c :: cs) = 47 :: c ++ as_str cs.
Proof. reflexivity. Qed.
Lemma as_str_app a b : as_str (a ++ b) = as_str a ++ as_str b.
Proof. apply flat_map_app. Qed.
Lemma as_str_split s : as_str (split_on 47 s) = 47 :: s.
Proof.
  induction s as [|c s IH]; [reflexivity|]. cbn [split_on]. destruct (N.eqb_spec c 47) as [->|N]; [unfold as_str in *; cbn [flat_map app]; now rewrite IH|].
  destruct (split_on 47 s) as [|p ps] eqn:E; [now destruct (split_on_nonempty 47 s)|]. unfold as_str in *. cbn [flat_map app] in *. injection IH as IH. now rewrite IH.
Qed.
Lemma slashes_none s : ~ In 92 s <-> slashes s = s.
Proof.
  induction s as [|c s IH]; [now split; [|intros _ []]|]. cbn [slashes map In]. fold (slashes s). split.
  - intros N. destruct (N.eqb_spec c 92) as [->|]; [destruct N; now left|]. f_equal. apply IH. tauto.
  - intros [= E1 E2] [->|I]; [discriminate E1|]. now apply IH in E2.
Qed.
Lemma slashes_clean s : ~ In 92 (slashes s).
Proof. unfold slashes. intros I. apply in_map_iff in I as (c & E & _). destruct (N.eqb_spec c 92); [discriminate E|contradiction]. Qed.
Lemma as_str_in c v : In c (as_str v) -> c = 47 \/ exists n, In n v /\ In c n.
Proof. unfold as_str. intros I. apply in_flat_map in I as (n & In_ & [->|I]); [now left|right; eauto]. Qed.
Lemma removelast_in {A} (x : A) l : In x (removelast l) -> In x l.
Proof. induction l as [|a l IH]; [auto|]. destruct l as [|b l]; [intros []|]. cbn [removelast]. intros [->|I]; [now left|right; auto]. Qed.
Lemma steps_in n base cs v : steps base cs v -> In n v -> In n base \/ (In n cs /\ n <> [] /\ n <> bs "." /\ n <> bs "..").
Proof.
  induction 1 as [v|v c cs u C S IH|v cs u S IH|v c cs u N1 N2 N3 S IH]; intros I; [now left| | |].
  - destruct (IH I) as [|[]]; [auto|right; split; [now right|auto]].
  - destruct (IH I) as [K|[]]; [left; now apply removelast_in|right; split; [now right|auto]].
  - destruct (IH I) as [K|[]]; [|right; split; [now right|auto]]. apply in_app_iff in K as [K|[<-|[]]]; [now left|right]. split; [now left|auto].
Qed.
Lemma leads_plain base s v : Forall plain base -> ~ In 92 s -> leads base s v -> Forall plain v.
Proof.
  intros B NS [_ S]. apply Forall_forall. intros n I. destruct (steps_in n _ _ _ S I) as [K|(K & N1 & N2 & N3)].
  - destruct (starts_with [47] s); [destruct K|]. rewrite Forall_forall in B. auto.
  - assert (P := split_on_parts 47 s). rewrite Forall_forall in P. split; [exact N1|split; [exact N2|split; [exact N3|split; [now apply P|]]]].
    intros I2. apply NS. assert (J : In 92 (as_str (split_on 47 s))) by (unfold as_str; apply in_flat_map; exists n; split; [exact K|now right]). rewrite as_str_split in J. destruct J as [J|J]; [discriminate J|exact J].
Qed.
Lemma plain_slashes v : Forall plain v -> slashes (as_str v) = as_str v.
Proof. intros P. apply slashes_none. intros I. apply as_str_in in I as [I|(n & I & J)]; [discriminate I|]. rewrite Forall_forall in P. apply P in I. now apply I. Qed.
Lemma removelast_str v : (length (as_str (removelast v)) <= length (as_str v))%nat.
Proof. destruct v as [|x v] using rev_ind; [reflexivity|]. rewrite removelast_last, as_str_app, app_length. lia. Qed.
Lemma steps_short base cs v : steps base cs v -> (length (as_str v) < length (as_str base) + length (as_str cs))%nat \/ v = base ++ cs.
Proof.
  induction 1 as [v|v c cs u C S IH|v cs u S IH|v c cs u N1 N2 N3 S IH]; [right; now rewrite app_nil_r| | |].
  - left. rewrite as_str_cons. cbn [length]. rewrite app_length. destruct IH as [IH| ->]; [|rewrite as_str_app, app_length]; lia.
  - left. assert (R := removelast_str v). rewrite as_str_cons. cbn [length]. rewrite app_length. destruct IH as [IH| ->]; [|rewrite as_str_app, app_length]; lia.
  - rewrite <- app_assoc in IH. cbn [app] in IH. destruct IH as [IH| ->]; [left|now right]. rewrite as_str_app, app_length, as_str_cons in IH. rewrite as_str_cons. cbn [length] in *. rewrite app_length in *. cbn [as_str flat_map length] in IH. lia.
Qed.
(** A path of the workspace is its own spelling. *)
Lemma asked s v base : absolute s -> leads base s v -> same (as_str v) s -> as_str v = s.
Proof.
  intros (r & ->) [_ S] E. cbn [starts_with] in S. rewrite N.eqb_refl in S. cbn [andb] in S. assert (K : split_on 47 (47 :: r) = [] :: split_on 47 r) by reflexivity. rewrite K in S.
  inversion S as [|v0 c cs u C S2| |v0 c cs u N1 N2 N3 S2]; subst; [|now destruct N1]. apply same_length in E. destruct (steps_short _ _ _ S2) as [L| ->]; [rewrite as_str_split in L; cbn [as_str flat_map app length] in *; lia|apply as_str_split].
Qed.
Lemma found_noted mk v s : Forall plain v -> exists mm, noted v s mm /\ found mk v s = Found (mk v) mm.
Proof.
  intros P. unfold found, is_wrong_case. rewrite (plain_slashes v P). destruct (eqb_bytes (ascii_lower (as_str v)) (ascii_lower s)) eqn:E1; [destruct (eqb_bytes (as_str v) s) eqn:E2|]; cbn [andb negb].
  - eexists. split; [|reflexivity]. apply as_asked. apply eqb_bytes_spec in E2. tauto.
  - eexists. split; [|reflexivity]. apply eqb_bytes_spec in E1. apply eqb_bytes_false in E2. now apply respelled.
  - eexists. split; [|reflexivity]. apply as_asked. apply eqb_bytes_false in E1. unfold same. tauto.
Qed.
Lemma noted_fun v s m1 m2 : noted v s m1 -> noted v s m2 -> m1 = m2.
Proof. intros [] []; tauto. Qed.

(** ** The disk *)
Lemma on_disk_inv w d : on_disk w d -> forall a n b, d = a ++ n :: b -> exists es, listing w a = Some es /\ In n es.
Proof.
  induction 1 as [|d es m D IH L I]; intros a n b E; [now destruct a|]. destruct b as [|x b] using rev_ind.
  - apply app_inj_tail in E as [-> ->]. eauto.
  - rewrite app_comm_cons, app_assoc in E. apply app_inj_tail in E as [E _]. eauto.
Qed.
Lemma find_twins es e n : NoDup (map ascii_lower es) -> In e es -> same e n -> find (fun x => eqb_bytes (ascii_lower x) (ascii_lower n)) es = Some e.
Proof.
  intros ND I S. induction es as [|x es IH]; [destruct I|]. cbn [find map] in *. inversion ND as [|? ? N1 N2]; subst. destruct (eqb_bytes (ascii_lower x) (ascii_lower n)) eqn:E.
  - destruct I as [->|I]; [reflexivity|]. apply eqb_bytes_spec in E. exfalso. apply N1. rewrite E, <- S. now apply in_map.
  - destruct I as [->|I]; [|auto]. unfold same in S. rewrite S, eqb_bytes_refl in E. discriminate E.
Qed.
Lemma ci_recased w : usual_disk w -> forall names cur d, ci_from w cur names = Some d <-> recased w cur names d.
Proof.
  intros [U1 U2 U3 U4]. induction names as [|n names IH]; intros cur d; cbn [ci_from].
  - split.
    + destruct (alive w cur) eqn:A; [|discriminate]. intros [= <-]. exists []. split; [now rewrite app_nil_r|]. split; [constructor|]. split; [now apply U1|exact A].
    + intros (ns & -> & F & D & A). inversion F; subst. rewrite app_nil_r in *. now rewrite A.
  - destruct (listing w cur) as [es|] eqn:L.
    + destruct (find _ es) as [e|] eqn:F.
      * apply find_some in F as [I E]. apply eqb_bytes_spec in E. rewrite IH. split.
        -- intros (ns & -> & F & D & A). exists (e :: ns). rewrite <- app_assoc in *. split; [reflexivity|]. split; [now constructor|]. auto.
        -- intros (ns & -> & F & D & A). inversion F as [|x y l l' S F2]; subst. destruct (on_disk_inv _ _ D _ _ _ eq_refl) as (es' & L' & I').
           rewrite L in L'. injection L' as <-. assert (x = e) as ->. { assert (K := U4 _ _ L). assert (Some x = Some e) by (rewrite <- (find_twins es x n K I' S), <- (find_twins es e n K I E); reflexivity). congruence. }
           exists l. rewrite <- app_assoc. auto.
      * split; [discriminate|]. intros (ns & -> & F2 & D & A). inversion F2 as [|x y l l' S F3]; subst. destruct (on_disk_inv _ _ D _ _ _ eq_refl) as (es' & L' & I').
        rewrite L in L'. injection L' as <-. assert (K := find_none _ _ F x I'). cbv beta in K. unfold same in S. rewrite S, eqb_bytes_refl in K. discriminate K.
    + split; [discriminate|]. intros (ns & -> & F2 & D & A). inversion F2 as [|x y l l' S F3]; subst. destruct (on_disk_inv _ _ D _ _ _ eq_refl) as (es' & L' & I'). congruence.
Qed.
Lemma split_as_str n v : plain n -> Forall plain v -> split_on 47 (n ++ as_str v) = n :: v.
Proof.
  intros N P. revert n N. induction P as [|m v Q P IH]; intros n N.
  - cbn [as_str flat_map]. rewrite app_nil_r. apply split_on_none. apply N.
  - rewrite as_str_cons, split_on_app by apply N. f_equal. now apply IH.
Qed.
Definition real (c : text) : bool := negb (eqb_bytes c [] || eqb_bytes c [46] || eqb_bytes c [46; 46]).
Lemma real_plain c : plain c -> real c = true.
Proof. intros (N1 & N2 & N3 & _). apply eqb_bytes_false in N1, N2, N3. change (bs ".") with [46] in N2. change (bs "..") with [46; 46] in N3. unfold real. now rewrite N1, N2, N3. Qed.
Lemma filter_real v : Forall plain v -> filter real v = v.
Proof. induction 1 as [|n v N P IH]; [reflexivity|]. cbn [filter]. now rewrite (real_plain n N), IH. Qed.
Lemma trim_plain n r : plain n -> trim_slashes (n ++ r) = n ++ r.
Proof. intros (N & _ & _ & S & _). destruct n as [|c n]; [now destruct N|]. cbn [app trim_slashes]. destruct (N.eqb_spec c 47) as [->|]; [destruct S; now left|reflexivity]. Qed.
Lemma normal_as_str v : Forall plain v -> normal (trim_slashes (as_str v)) = v.
Proof.
  intros P. unfold normal. change (filter real (split_on 47 (trim_slashes (as_str v))) = v). destruct P as [|n v N P]; [reflexivity|]. rewrite as_str_cons. cbn [trim_slashes]. rewrite N.eqb_refl, trim_plain, split_as_str by assumption.
  apply filter_real. now constructor.
Qed.
Lemma steps_filter base cs v : steps base cs v -> ~ In (bs "..") cs -> v = base ++ filter real cs.
Proof.
  induction 1 as [v|v c cs u C S IH|v cs u S IH|v c cs u N1 N2 N3 S IH]; intros N; [now rewrite app_nil_r| |destruct N; now left|].
  - cbn [filter]. assert (real c = false) as -> by now destruct C as [-> | ->]. apply IH. intros K. apply N. now right.
  - rewrite IH by (intros K; apply N; now right). cbn [filter]. apply eqb_bytes_false in N1, N2, N3. change (bs ".") with [46] in N2. change (bs "..") with [46; 46] in N3.
    assert (real c = true) as -> by (unfold real; now rewrite N1, N2, N3). now rewrite <- app_assoc.
Qed.
Lemma normal_leads s v : absolute s -> ~ In (bs "..") (split_on 47 s) -> leads [] s v -> normal s = v.
Proof. intros A N [_ S]. assert (steps [] (split_on 47 s) v) as S2 by now destruct (starts_with [47] s). apply steps_filter in S2; [|exact N]. symmetry. exact S2. Qed.
Lemma last_plain v : Forall plain v -> v <> [] -> ~ exists a, as_str v = a ++ [47].
Proof.
  intros P N (a & E). destruct v as [|n v] using rev_ind; [now destruct N|]. apply Forall_app in P as [_ P]. inversion P as [|? ? Q _]; subst. rewrite as_str_app in E. cbn [as_str flat_map] in E. rewrite app_nil_r in E.
  destruct Q as (Q & _ & _ & S & _). destruct n as [|c n] using rev_ind; [now destruct Q|]. rewrite app_comm_cons, app_assoc in E. apply app_inj_tail in E as [_ ->]. apply S. apply in_app_iff. right. now left.
Qed.
Lemma steps_plain base v : Forall plain v -> steps base v (base ++ v).
Proof. intros P. revert base. induction P as [|n v N P IH]; intros base; [rewrite app_nil_r; constructor|]. assert (N' := N). destruct N' as (N1 & N2 & N3 & _). apply down; auto. replace (base ++ n :: v) with ((base ++ [n]) ++ v) by now rewrite <- app_assoc. apply IH. Qed.
Lemma found_ci_plain d : Forall plain d -> found_ci d = Found (InWorkspace d) (Some (bs "." ++ as_str d)).
Proof.
  intros P. unfold found_ci. assert (vfs_join [] (46 :: as_str d) = Some d) as ->; [|reflexivity]. apply join_leads. split.
  - right. intros (a & E). destruct d as [|n d]; [destruct a as [|x [|]]; discriminate E|]. destruct a as [|x a]; [discriminate E|]. injection E as _ E. eapply last_plain; eauto. discriminate.
  - cbn [starts_with]. assert (47 =? 46 = false) as -> by reflexivity. cbn [andb].
    assert (split_on 47 (46 :: as_str d) = [46] :: d) as ->. { destruct P as [|n d N P]; [reflexivity|]. rewrite as_str_cons. change (46 :: 47 :: n ++ as_str d) with ([46] ++ 47 :: n ++ as_str d). rewrite split_on_app by (intros [K|[]]; discriminate K). f_equal. now apply split_as_str. }
    apply stay; [now right|]. apply (steps_plain [] d P).
Qed.
Lemma search_found w names : usual_disk w -> Forall plain names -> exists r, searched w names r /\
  match (match ci_from w [] names with Some p => Some p | None => ci_from w [bs "include"] names end) with Some d => found_ci d | None => Missing end = r.
Proof.
  intros U P. destruct (ci_from w [] names) as [d|] eqn:E.
  - apply (ci_recased w U) in E. eexists. split; [apply in_project; exact E|]. apply found_ci_plain. destruct E as (ns & _ & _ & D & _). now apply (plain_names w U).
  - assert (N1 : forall d, ~ recased w [] names d) by (intros d R; apply (ci_recased w U) in R; congruence). destruct (ci_from w [bs "include"] names) as [d|] eqn:E2.
    + apply (ci_recased w U) in E2. eexists. split; [apply in_include; [exact N1|exact E2]|]. apply found_ci_plain. destruct E2 as (ns & _ & _ & D & _). now apply (plain_names w U).
    + eexists. split; [apply nowhere; [exact N1|]|reflexivity]. intros d R. apply (ci_recased w U) in R. congruence.
Qed.
Lemma recased_fun w from names d1 d2 : usual_disk w -> recased w from names d1 -> recased w from names d2 -> d1 = d2.
Proof. intros U A B. apply (ci_recased w U) in A, B. congruence. Qed.
Lemma searched_fun w names r1 r2 : usual_disk w -> searched w names r1 -> searched w names r2 -> r1 = r2.
Proof.
  intros U [d1 R1|d1 N1 R1|N1 N2] [d2 R2|d2 M1 R2|M1 M2]; try reflexivity; try (exfalso; now (eapply N1; eauto)); try (exfalso; now (eapply N2; eauto)); try (exfalso; now (eapply M1; eauto)); try (exfalso; now (eapply M2; eauto)).
  - now rewrite (recased_fun w [] names d1 d2 U R1 R2).
  - now rewrite (recased_fun w _ names d1 d2 U R1 R2).
Qed.

(** ** Prefixes *)
Lemma find_apart {A} (f : A -> bool) (l : list A) x : ForallOrdPairs (fun a b => f a = true -> f b = true -> False) l -> In x l -> f x = true -> find f l = Some x.
Proof.
  induction 1 as [|a l F P IH]; intros I E; [destruct I|]. cbn [find]. destruct (f a) eqn:FA.
  - destruct I as [->|I]; [reflexivity|]. rewrite Forall_forall in F. destruct (F x I eq_refl E).
  - destruct I as [->|I]; [congruence|auto].
Qed.
Lemma apart_tests {A} (key : A -> text) (l : list A) s : apart (map key l) ->
  ForallOrdPairs (fun a b => starts_with (ascii_lower (key a) ++ [47]) (ascii_lower s) = true -> starts_with (ascii_lower (key b) ++ [47]) (ascii_lower s) = true -> False) l.
Proof.
  unfold apart. induction l as [|a l IH]; intros H; constructor; inversion H as [|? ? F P]; subst; [|auto]. rewrite Forall_forall in *. intros b I T1 T2. apply under_test in T1 as (r1 & T1), T2 as (r2 & T2).
  eapply F; [apply in_map; exact I|exact T1|exact T2].
Qed.
Lemma pointer_found {A} (key : A -> text) (l : list A) s x rest : apart (map key l) -> In x l -> under (key x) s rest ->
  find (fun bp => starts_with (ascii_lower (key bp) ++ [47]) (ascii_lower s)) l = Some x.
Proof. intros AP I U. apply find_apart; [now apply apart_tests|exact I|]. apply under_test. eauto. Qed.
Lemma pointer_none {A} (key : A -> text) (l : list A) s : (forall x rest, In x l -> ~ under (key x) s rest) ->
  find (fun bp => starts_with (ascii_lower (key bp) ++ [47]) (ascii_lower s)) l = None.
Proof. intros N. destruct (find _ l) as [x|] eqn:F; [|reflexivity]. apply find_some in F as [I T]. apply under_test in T as (r & T). now apply N in T. Qed.

(** ** Locating *)
Lemma pd_none w s : no_pdrive w s ->
  (if starts_with (bs "/a3/") (ascii_lower s) then match pdrive w with Some f => f s | None => PdNone end else PdNone) = PdNone.
Proof.
  intros N. change (bs "/a3/") with (ascii_lower (bs "/a3") ++ [47]). destruct (starts_with _ _) eqn:E; [|reflexivity]. apply under_test in E. destruct (pdrive w) as [f|] eqn:P; [|reflexivity]. exact (N E f P).
Qed.
Lemma abs_test s : starts_with [47] s = true <-> absolute s.
Proof. rewrite starts_with_spec. reflexivity. Qed.
Lemma beside_missing w cur s v : absolute s -> leads [] s v -> exists_ w v = false -> beside w cur s = Missing.
Proof.
  intros A L E. unfold beside. assert (vfs_join (removelast cur) s = Some v) as ->; [|now rewrite E]. apply join_leads. destruct L as [L1 L2]. split; [exact L1|]. apply abs_test in A. now rewrite A in *.
Qed.
(** No path is below two prefixes: the prefix that is chosen. *)
Lemma locate_prefix w cur req base root rest u v : let s := slashes req in usual_disk w -> absolute s -> no_pdrive w s -> leads [] s v -> exists_ w v = false ->
  apart (map fst (pointers w)) -> In (base, root) (pointers w) -> under base s rest -> Forall plain root -> leads root rest u ->
  if exists_ w u then exists mm, noted u s mm /\ locate w cur req = Found (InWorkspace u) mm
  else exists r, searched w u r /\ locate w cur req = r.
Proof.
  intros s U A NP L E AP I UN PR L2. unfold locate. fold s. rewrite (pd_none w s NP). assert (AT := A). apply abs_test in AT. rewrite AT. assert (vfs_join [] s = Some v) as -> by now apply join_leads. rewrite E.
  assert (NS : ~ In 92 s) by apply slashes_clean.
  rewrite (pointer_found fst (pointers w) s (base, root) rest AP I UN). rewrite (under_strip _ _ _ UN). cbv zeta. rewrite N.eqb_refl. assert (vfs_join root rest = Some u) as -> by now apply join_leads.
  assert (PU : Forall plain u). { eapply leads_plain; [exact PR| |exact L2]. destruct UN as (b & E2 & _). intros K. apply NS. rewrite E2. apply in_app_iff. right. now right. }
  destruct (exists_ w u) eqn:EU; [now apply found_noted|].
  destruct (search_found w u U PU) as (r & S & R). exists r. split; [exact S|]. rewrite <- R. unfold exists_ci. rewrite (normal_as_str u PU). destruct (match ci_from w [] u with Some p => Some p | None => ci_from w [bs "include"] u end); [reflexivity|]. now apply (beside_missing w cur s v).
Qed.
Lemma split_once_str_spec p s : (exists r, split_once_str p s = Some r) <-> exists a b, s = a ++ p ++ b.
Proof.
  induction s as [|c s IH]; cbn [split_once_str].
  - destruct (starts_with p []) eqn:E.
    + apply starts_with_spec in E as (r & E). split; [intros _; exists [], r; exact E|eauto].
    + split; [intros (r & K); discriminate K|]. intros (a & b & K). destruct a; [|discriminate K]. cbn in K. assert (starts_with p [] = true) by (apply starts_with_spec; eauto). congruence.
  - destruct (starts_with p (c :: s)) eqn:E.
    + apply starts_with_spec in E as (r & E). split; [intros _; exists [], r; exact E|eauto].
    + split.
      * destruct (split_once_str p s) as [(x, y)|] eqn:F; [|intros (r & K); discriminate K]. intros _. destruct (proj1 IH (ex_intro _ _ eq_refl)) as (a & b & ->). now exists (c :: a), b.
      * intros (a & b & K). destruct a as [|d a]; [assert (starts_with p (c :: s) = true) by (apply starts_with_spec; eauto); congruence|]. injection K as -> K.
        destruct (proj2 IH) as ((x, y) & F); [eauto|]. rewrite F. eauto.
Qed.
Lemma in_hemtt_spec v : in_hemtt v = true <-> mentions_hemtt v.
Proof.
  unfold in_hemtt, mentions_hemtt. rewrite <- split_once_str_spec. destruct (split_once_str (bs ".hemtt") (as_str v)) as [r|]; split; [eauto|auto|discriminate|]. intros (r & K); discriminate K.
Qed.

(** ** Prefixes as paths *)
Lemma slashes_app a b : slashes (a ++ b) = slashes a ++ slashes b.
Proof. apply map_app. Qed.
Lemma lower_backslash c : (if (65 <=? c) && (c <=? 90) then c + 32 else c) = 92 <-> c = 92.
Proof. destruct (N.leb_spec 65 c), (N.leb_spec c 90); cbn [andb]; lia. Qed.
Lemma lower_clean s : ~ In 92 s -> slashes (ascii_lower s) = ascii_lower s.
Proof. intros N. apply slashes_none. unfold ascii_lower. intros I. apply in_map_iff in I as (c & E & I). apply (proj1 (lower_backslash c)) in E. rewrite E in I. auto. Qed.
Lemma key_path parts : Forall (fun p => ~ In 92 p) parts -> pointer_key parts = prefix_path parts.
Proof.
  intros F. unfold pointer_key, prefix_path, prefix_display. change (bs "/") with [47]. cbn [app]. f_equal. induction F as [|p ps N F IH]; [reflexivity|]. destruct ps as [|q ps]; [cbn [join map]; now apply lower_clean|].
  assert (K : forall sep (a : text) r, r <> [] -> join sep (a :: r) = a ++ sep ++ join sep r) by (intros sep a [|b r] H; [now destruct H|reflexivity]).
  rewrite (K [92] p (q :: ps)) by discriminate. cbn [map]. rewrite (K [47] (ascii_lower p)) by discriminate. cbn [map] in IH. rewrite <- IH, lower_app, slashes_app, lower_clean by exact N. f_equal.
Qed.
Lemma prefix_parts s parts : prefix_new ascii_lower s = POk parts -> Forall (fun p => ~ In 92 p) parts.
Proof.
  unfold prefix_new. destruct (trim s) as [|c t]; [discriminate|]. destruct (contains 47 (c :: t)); [discriminate|]. destruct (_ && _).
  - destruct (starts_backslash _); [discriminate|]. intros E. assert (K := split_on_parts 92 (c :: t)). revert K. generalize (split_on 92 (c :: t)) E. intros l [= ->]. auto.
  - generalize (lines (c :: t)) as ls. induction ls as [|l ls IH]; cbn [prefix_lines]; [discriminate|]. destruct (split_once 61 l) as [(k, v)|]; [|exact IH]. destruct (eqb_bytes _ _); [|exact IH]. destruct (starts_backslash _); [discriminate|].
    intros E. assert (K := split_on_parts 92 (trim v)). revert K. generalize (split_on 92 (trim v)) E. intros l' [= ->]. auto.
Qed.
