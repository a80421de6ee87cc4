(** Proofs for C93: each decoder against the kind of value it reads. *)
From Coq Require Import String ZArith Sorting.Sorted.
From Verif Require Import Base.Tactics Base.Bytes Base.Ascii Base.Text Base.Sort.
From Verif Require Import Common.LaunchModel Common.LaunchSpec Common.ProjectVersionModel Common.ProjectVersionSpec Bin.ExecModel Bin.BinarizeModel.
From Verif Require Import Bin.SettingsModel Bin.SettingsSpec.
From Verif Require Bin.LintModel.
Local Open Scope N_scope.
Local Open Scope list_scope.

Definition reads {A} (d : toml -> option A) (P : toml -> A -> Prop) : Prop := forall v x, d v = Some x <-> P v x.

(** Of values without a key twice. *)
Definition reads_in {A} (d : toml -> option A) (P : toml -> A -> Prop) : Prop := forall v x, distinct v -> (d v = Some x <-> P v x).
Lemma always {A} (d : toml -> option A) P : reads d P -> reads_in d P.
Proof. intros R v x _. apply R. Qed.
Lemma same_key a b : reflect (a = b) (eqb_bytes a b).
Proof. apply iff_reflect. symmetry. apply eqb_bytes_spec. Qed.
Lemma lookup_in t k v : NoDup (map fst t) -> (lookup t k = Some v <-> In (k, v) t).
Proof.
  induction t as [|(k', v') t IH]; cbn [lookup map In fst]; intros ND; [split; [discriminate|intros []]|]. inversion ND as [|? ? NI ND']; subst.
  destruct (same_key k k') as [->|NE].
  - split; [intros [= ->]; now left|]. intros [[= ->]|I]; [reflexivity|]. destruct NI. apply in_map_iff. exists (k', v). now split.
  - rewrite (IH ND'). split; [now right|]. intros [[= ]|I]; [congruence|exact I].
Qed.
Lemma lookup_none t k : lookup t k = None <-> forall v, ~ In (k, v) t.
Proof.
  induction t as [|(k', v') t IH]; cbn [lookup In]; [split; [intros _ v []|reflexivity]|]. destruct (same_key k k') as [->|NE].
  - split; [discriminate|]. intros H. destruct (H v'). now left.
  - rewrite IH. split; [intros H v [[= ]|I]; [congruence|exact (H v I)]|]. intros H v I. apply (H v). now right.
Qed.
Lemma distinct_nodup t : distinct (TTable t) -> NoDup (map fst t).
Proof. intros D. inversion D as [? H|? H]; subst; [exact H|]. now destruct (H t). Qed.
Lemma distinct_in t k v : distinct (TTable t) -> In (k, v) t -> distinct v.
Proof. intros D I. inversion D as [? ? H|? H]; subst; [exact (H _ _ I)|]. now destruct (H t). Qed.

Section Fields.
  Context (t : list (text * toml)) (D : distinct (TTable t)).
  Lemma says_one k v : says (TTable t) [k] v <-> lookup t k = Some v.
  Proof using D.
    rewrite (lookup_in t k v (distinct_nodup t D)). split; [intros S; inversion S as [|? ? ? ? ? I S']; subst; inversion S'; now subst|]. intros I. econstructor; [exact I|constructor].
  Qed.
  Lemma unsaid_one k : unsaid (TTable t) [k] <-> lookup t k = None.
  Proof using D. unfold unsaid. setoid_rewrite says_one. destruct (lookup t k); split; [intros H; now destruct (H t0)|discriminate|reflexivity|discriminate]. Qed.
  Lemma field_distinct k v : lookup t k = Some v -> distinct v.
  Proof using D. intros L. apply (lookup_in t k v (distinct_nodup t D)) in L. exact (distinct_in t k v D L). Qed.
  Context {A : Type} (d : toml -> option A) (P : toml -> A -> Prop) (R : reads_in d P).
  Ltac at_field k := let L := fresh "L" in destruct (lookup t k) as [v|] eqn:L; [pose proof (fun x => R v x (field_distinct k v L)) as Rv|].
  Lemma opt_maybe k x : opt t k d = Some x <-> maybe P (TTable t) [k] x.
  Proof using D R.
    unfold opt, maybe. rewrite unsaid_one. setoid_rewrite says_one. at_field k.
    - destruct (d v) as [a|] eqn:E.
      + split; [intros [= <-]; left; exists v, a; repeat split; now apply Rv|]. intros [(w & b & [= <-] & Pb & ->)|(H & _)]; [|discriminate]. apply Rv in Pb. congruence.
      + split; [discriminate|]. intros [(w & b & [= <-] & Pb & ->)|(H & _)]; [|discriminate]. apply Rv in Pb. congruence.
    - split; [intros [= <-]; right; auto|]. intros [(w & b & H & _)|(_ & ->)]; [discriminate|reflexivity].
  Qed.
  Lemma dflt_given k y x : dflt y t k d = Some x <-> given P (TTable t) [k] y x.
  Proof using D R.
    unfold dflt, given. rewrite unsaid_one. setoid_rewrite says_one. at_field k.
    - rewrite (Rv x). split; [eauto|]. intros [(w & [= <-] & Pb)|(H & _)]; [exact Pb|discriminate].
    - split; [intros [= <-]; right; auto|]. intros [(w & H & _)|(_ & ->)]; [discriminate|reflexivity].
  Qed.
  Lemma req_says k x : req t k d = Some x <-> exists v, says (TTable t) [k] v /\ P v x.
  Proof using D R.
    unfold req. setoid_rewrite says_one. at_field k; [|split; [discriminate|intros (w & H & _); discriminate]].
    rewrite (Rv x). split; [eauto|]. intros (w & [= <-] & H). exact H.
  Qed.
  Lemma opt_fits k : opt t k d <> None <-> fits P (TTable t) [k].
  Proof using D R.
    unfold opt, fits. setoid_rewrite says_one. at_field k; [|split; [intros _ v; discriminate|discriminate]]. destruct (d v) as [x|] eqn:E.
    - split; [|discriminate]. intros _ w [= <-]. exists x. now apply Rv.
    - split; [congruence|]. intros H. destruct (H v eq_refl) as (x & Px). apply Rv in Px. congruence.
  Qed.
  Lemma dflt_fits k y : dflt y t k d <> None <-> fits P (TTable t) [k].
  Proof using D R.
    unfold dflt, fits. setoid_rewrite says_one. at_field k; [|split; [intros _ v; discriminate|discriminate]]. split.
    - intros H w [= <-]. destruct (d v) as [x|] eqn:E; [|congruence]. exists x. now apply Rv.
    - intros H E. destruct (H v eq_refl) as (x & Px). apply Rv in Px. congruence.
  Qed.
  Lemma req_fits k : req t k d <> None <-> fits P (TTable t) [k] /\ ~ unsaid (TTable t) [k].
  Proof using D R.
    unfold req, fits. rewrite unsaid_one. setoid_rewrite says_one. at_field k; [|split; [congruence|intros (_ & H); congruence]]. split.
    - intros H. split; [|discriminate]. intros w [= <-]. destruct (d v) as [x|] eqn:E; [|congruence]. exists x. now apply Rv.
    - intros (H & _) E. destruct (H v eq_refl) as (x & Px). apply Rv in Px. congruence.
  Qed.
End Fields.

(** Sections. *)
Section Sections.
  Context (t s : list (text * toml)) (k : text) (D : distinct (TTable t)) (S : section t k = Some s).
  Lemma section_distinct : distinct (TTable s).
  Proof using D S.
    unfold section in S. destruct (lookup t k) as [v|] eqn:E.
    - apply (lookup_in t k v (distinct_nodup t D)) in E. destruct v; try discriminate. injection S as <-. exact (distinct_in t k _ D E).
    - injection S as <-. apply distinct_table; [constructor|intros ? ? []].
  Qed.
  Lemma section_says k' p v : says (TTable s) (k' :: p) v <-> says (TTable t) (k :: k' :: p) v.
  Proof using D S.
    unfold section in S. destruct (lookup t k) as [w|] eqn:E.
    - apply (lookup_in t k w (distinct_nodup t D)) in E as I. destruct w; try discriminate. injection S as ->. split; [intros H; econstructor; eassumption|].
      intros H. inversion H as [|? ? v' ? ? I' H']; subst. apply (lookup_in t k v' (distinct_nodup t D)) in I'. rewrite E in I'. injection I' as <-. exact H'.
    - injection S as <-. split; intros H; exfalso; [inversion H as [|? ? ? ? ? I]; subst; destruct I|]. inversion H as [|? ? ? ? ? I]; subst. exact (proj1 (lookup_none t k) E _ I).
  Qed.
  Lemma section_unsaid k' p : unsaid (TTable s) (k' :: p) <-> unsaid (TTable t) (k :: k' :: p).
  Proof using D S. unfold unsaid. now setoid_rewrite section_says. Qed.
  Lemma section_given {A} (P : toml -> A -> Prop) k' p y x : given P (TTable s) (k' :: p) y x <-> given P (TTable t) (k :: k' :: p) y x.
  Proof using D S. unfold given. setoid_rewrite section_says. now rewrite section_unsaid. Qed.
  Lemma section_maybe {A} (P : toml -> A -> Prop) k' p x : maybe P (TTable s) (k' :: p) x <-> maybe P (TTable t) (k :: k' :: p) x.
  Proof using D S. unfold maybe. setoid_rewrite section_says. now rewrite section_unsaid. Qed.
  Lemma section_fits {A} (P : toml -> A -> Prop) k' p : fits P (TTable s) (k' :: p) <-> fits P (TTable t) (k :: k' :: p).
  Proof using D S. unfold fits. now setoid_rewrite section_says. Qed.
End Sections.
Lemma section_some t k : distinct (TTable t) -> (section t k <> None <-> forall v, says (TTable t) [k] v -> exists x, v = TTable x).
Proof.
  intros D. setoid_rewrite (says_one t D). unfold section. destruct (lookup t k) as [v|]; [|split; [intros _ v; discriminate|discriminate]].
  split; [intros H w [= <-]; destruct v; try congruence; eauto|]. intros H. destruct (H v eq_refl) as (x & ->). discriminate.
Qed.

(** The kinds. *)
Lemma r_str : reads d_str is_str.
Proof. intros v x. unfold is_str. destruct v; cbn; split; congruence. Qed.
Lemma r_bool : reads d_bool is_bool.
Proof. intros v x. unfold is_bool. destruct v; cbn; split; congruence. Qed.
Lemma r_num b : reads (d_num b) (is_num b).
Proof.
  intros v x. unfold is_num. destruct v as [|z| | | |]; cbn; try (split; [discriminate|intros (H & _); discriminate]). split.
  - destruct (Z.leb_spec 0 z); [|discriminate]. destruct (Z.ltb_spec z (Z.of_N b)); [|discriminate]. intros [= <-]. split; [f_equal; lia|lia].
  - intros ([= ->] & L). replace (0 <=? Z.of_N x)%Z with true by (symmetry; apply Z.leb_le; lia). replace (Z.of_N x <? Z.of_N b)%Z with true by (symmetry; apply Z.ltb_lt; lia). cbn [andb]. f_equal. lia.
Qed.
Lemma r_all {A} (d : toml -> option A) P : reads d P -> forall vs l, d_all d vs = Some l <-> Forall2 P vs l.
Proof.
  intros R. induction vs as [|v vs IH]; intros l; cbn [d_all]; [split; [intros [= <-]; constructor|intros H; now inversion H]|]. split.
  - destruct (d v) as [x|] eqn:E; [|discriminate]. destruct (d_all d vs) as [r|] eqn:F; [|discriminate]. intros [= <-]. constructor; [now apply R|now apply IH].
  - intros H. inversion H as [|? x ? r Px Pr]; subst. apply R in Px as ->. apply IH in Pr as ->. reflexivity.
Qed.
Lemma r_list {A} (d : toml -> option A) P : reads d P -> reads (d_list d) (is_list P).
Proof.
  intros R v l. unfold is_list, d_list. destruct v; try (split; [discriminate|intros (vs & H & _); discriminate]). rewrite (r_all d P R). split; [eauto|]. intros (vs & [= <-] & H). exact H.
Qed.
Lemma r_entries {A} (d : toml -> option A) P : reads_in d P -> forall t, (forall k v, In (k, v) t -> distinct v) ->
  forall m, d_entries d t = Some m <-> Forall2 (fun e x => fst e = fst x /\ P (snd e) (snd x)) t m.
Proof.
  intros R. induction t as [|(k, v) t IH]; intros D m; cbn [d_entries]; [split; [intros [= <-]; constructor|intros H; now inversion H]|].
  specialize (IH (fun k v I => D k v (or_intror I))). pose proof (fun x => R v x (D k v (or_introl eq_refl))) as Rv. split.
  - destruct (d v) as [x|] eqn:E; [|discriminate]. destruct (d_entries d t) as [r|] eqn:F; [|discriminate]. intros [= <-]. constructor; [split; [reflexivity|now apply Rv]|now apply IH].
  - intros H. inversion H as [|? (k', x) ? r (K & Px) Pr]; subst. cbn in K, Px. subst k'. apply Rv in Px as ->. apply IH in Pr as ->. reflexivity.
Qed.
Lemma r_map {A} (d : toml -> option A) P : reads_in d P -> reads_in (d_map d) (is_table P).
Proof.
  intros R v m D. unfold is_table, d_map. destruct v; try (split; [discriminate|intros (vs & H & _); discriminate]).
  rewrite (r_entries d P R t (fun k v => distinct_in t k v D)). split; [eauto|]. intros (vs & [= <-] & H). exact H.
Qed.
Lemma r_signs : reads d_signs is_signs.
Proof.
  intros v x. unfold d_signs, is_signs. destruct (d_num (2 ^ 32) v) as [n|] eqn:E.
  - apply r_num in E as (-> & _). destruct (N.eqb_spec n 2) as [->|N2]; [split; [intros [= <-]; left; auto|intros [(_ & ->)|(H & _)]; [reflexivity|discriminate]]|].
    destruct (N.eqb_spec n 3) as [->|N3]; [split; [intros [= <-]; right; auto|intros [(H & _)|(_ & ->)]; [discriminate|reflexivity]]|].
    split; [discriminate|]. intros [([= H] & _)|([= H] & _)]; exfalso; lia.
  - split; [discriminate|]. intros [(-> & _)|(-> & _)]; vm_compute in E; discriminate.
Qed.

Lemma starts_spec p s : starts_with p s = true <-> exists r, s = p ++ r.
Proof.
  revert s. induction p as [|a p IH]; intros s; cbn [starts_with app]; [split; [eauto|reflexivity]|]. destruct s as [|b s]; [split; [discriminate|intros (r & H); discriminate]|].
  rewrite andb_true_iff, N.eqb_eq, IH. split; [intros (-> & r & ->); eauto|]. intros (r & [= -> ->]). eauto.
Qed.
Lemma skip_app {A} (p r : list A) : skipn (length p) (p ++ r) = r.
Proof. now rewrite skipn_app, skipn_all, Nat.sub_diag. Qed.
Lemma strip_is p s r : p <> [] -> (strip p s = r <-> (exists n, s = concat (repeat p n) ++ r) /\ ~ exists q, r = p ++ q).
Proof.
  intros NE. unfold strip. assert (G : forall fuel s, (length s <= fuel)%nat -> strip_go fuel p s = r <-> (exists n, s = concat (repeat p n) ++ r) /\ ~ exists q, r = p ++ q).
  { induction fuel as [|fuel IH]; intros s' L; cbn [strip_go].
    - destruct s'; [|cbn in L; lia]. split.
      + intros <-. split; [now exists 0%nat|]. intros (q & H). destruct p; [congruence|discriminate].
      + intros ((n & H) & _). destruct n; cbn in H; [exact H|]. destruct p; [congruence|discriminate].
    - destruct (starts_with p s') eqn:E.
      + apply starts_spec in E as (q & ->). rewrite skip_app, IH by (rewrite app_length in L; destruct p; [congruence|cbn in L; lia]). split.
        * intros ((n & ->) & H). split; [exists (S n); cbn; now rewrite app_assoc|exact H].
        * intros ((n & Hn) & H). split; [|exact H]. destruct n; [destruct H; eauto|]. cbn in Hn. rewrite <- app_assoc in Hn. apply app_inv_head in Hn. eauto.
      + assert (N0 : ~ exists q, s' = p ++ q) by (intros H; apply starts_spec in H; congruence). split; [intros <-; split; [now exists 0%nat|exact N0]|].
        intros ((n & Hn) & _). destruct n; [exact Hn|]. destruct N0. cbn in Hn. rewrite <- app_assoc in Hn. eauto. }
  now apply G.
Qed.

Section Kinds.
  Context (lower : text -> text) (severity_of : text -> option severity) (kept : toml -> bytes).
  Lemma r_pdrive : reads (d_pdrive lower) (is_pdrive lower).
  Proof.
    intros v x. unfold d_pdrive, is_pdrive. destruct v as [s| | | | |]; cbn [d_str]; try (split; [discriminate|intros (s' & H & _); discriminate]).
    assert (NE : bs "disallow" <> bs "require" /\ bs "disallow" <> bs "ignore" /\ bs "require" <> bs "ignore") by (repeat split; discriminate). destruct NE as (N1 & N2 & N3).
    repeat (match goal with |- context [eqb_bytes ?a ?b] => destruct (same_key a b) end).
    - split; [intros [= <-]; eauto 6|]. intros (s' & [= <-] & [(H & ->)|[(H & ->)|(H & ->)]]); congruence.
    - split; [intros [= <-]; eauto 7|]. intros (s' & [= <-] & [(H & ->)|[(H & ->)|(H & ->)]]); congruence.
    - split; [intros [= <-]; eauto 7|]. intros (s' & [= <-] & [(H & ->)|[(H & ->)|(H & ->)]]); congruence.
    - split; [discriminate|]. intros (s' & [= <-] & [(H & ->)|[(H & ->)|(H & ->)]]); congruence.
  Qed.

  Lemma place_in n l s d : place n l s = Some d -> exists x, nth_error l (N.to_nat (d - n)) = Some x /\ In s x /\ n <= d.
  Proof. clear lower severity_of kept.
    revert n. induction l as [|x l IH]; intros n; cbn [place]; [discriminate|]. destruct (existsb (eqb_bytes s) x) eqn:E.
    - intros [= <-]. apply existsb_exists in E as (y & I & E). apply eqb_bytes_spec in E as <-. rewrite N.sub_diag. exists x. repeat split; [exact I|lia].
    - intros H. apply IH in H as (y & H & I & L). exists y. replace (N.to_nat (d - n)) with (S (N.to_nat (d - (n + 1)))) by lia. repeat split; [exact H|exact I|lia].
  Qed.
  Lemma r_dlc : reads (d_dlc lower) (is_dlc lower).
  Proof using lower.
    clear severity_of kept.
    intros v x. unfold d_dlc, is_dlc. set (table := [_; _; _; _; _; _; _; _]). assert (ET : dlc_names = map (map bs) table) by reflexivity.
    assert (ALL : forall i names name, nth_error table i = Some names -> In name names -> place 0 dlc_names (bs name) = Some (N.of_nat i) /\ ~ exists q, bs name = bs "creator dlc: " ++ q).
    { intros i names name H I. unfold table in H. do 8 (destruct i as [|i]; [injection H as <-; cbn [In] in I;
        repeat (destruct I as [<-|I]; [split; [vm_compute; reflexivity|intros (q & Q); vm_compute in Q; discriminate Q]|]); destruct I|]). destruct i; discriminate. }
    destruct v as [s| | | | |]; cbn [d_str]; try (split; [discriminate|intros (s' & n & ns & nm & H & _); discriminate]). split.
    - intros H. apply place_in in H as (ns & H & I & _). rewrite N.sub_0_r, ET, nth_error_map in H. destruct (nth_error table (N.to_nat x)) as [names|] eqn:E; [|discriminate]. injection H as <-.
      apply in_map_iff in I as (name & K & I). destruct (proj1 (strip_is (bs "creator dlc: ") (lower s) (bs name) ltac:(discriminate)) (eq_sym K)) as ((n & L) & _).
      exists s, n, names, name. repeat split; assumption.
    - intros (s' & n & names & name & [= <-] & H & I & L). destruct (ALL _ _ _ H I) as (P & Q).
      rewrite (proj2 (strip_is (bs "creator dlc: ") (lower s) (bs name) ltac:(discriminate)) (conj (ex_intro _ n L) Q)), P. f_equal. lia.
  Qed.
  Lemma r_severity : reads (d_severity severity_of) (is_severity severity_of).
  Proof.
    intros v x. unfold d_severity, is_severity. destruct v as [s| | | | |]; cbn [d_str]; try (split; [discriminate|intros (s' & H & _); discriminate]).
    split; [eauto|]. intros (s' & [= <-] & H). exact H.
  Qed.
  Lemma r_kept : reads (fun v => Some (kept v)) (fun v b => b = kept v).
  Proof. intros v x. split; congruence. Qed.
  Lemma r_lint : reads_in (d_lint severity_of kept) (is_lint severity_of kept).
  Proof.
    intros v x D. destruct v as [s|z|b| |l|t]; cbn [d_lint].
    - split; [destruct (severity_of s) eqn:E; [|discriminate]; intros [= <-]; now constructor|]. intros H. inversion H as [|? ? E|]; subst. now rewrite E.
    - split; [discriminate|intros H; inversion H].
    - split; [intros [= <-]; constructor|]. intros H. inversion H; now subst.
    - split; [discriminate|intros H; inversion H].
    - split; [discriminate|intros H; inversion H].
    - split.
      + destruct (opt t _ d_bool) as [e|] eqn:E1; [|discriminate]. destruct (opt t _ (d_severity _)) as [s|] eqn:E2; [|discriminate]. destruct (dflt _ t _ _) as [o|] eqn:E3; [|discriminate]. intros [= <-].
        constructor; [now apply (opt_maybe t D _ _ (always _ _ r_bool))|now apply (opt_maybe t D _ _ (always _ _ r_severity))|now apply (dflt_given t D _ _ (r_map _ _ (always _ _ r_kept)))].
      + intros H. inversion H as [| |? e s o E1 E2 E3]; subst. apply (opt_maybe t D _ _ (always _ _ r_bool)) in E1 as ->. apply (opt_maybe t D _ _ (always _ _ r_severity)) in E2 as ->.
        apply (dflt_given t D _ _ (r_map _ _ (always _ _ r_kept))) in E3 as ->. reflexivity.
  Qed.
  Lemma r_strings : reads (d_list d_str) strings.
  Proof. apply r_list, r_str. Qed.
  Lemma r_profile : reads_in (d_profile lower) (is_profile lower).
  Proof using lower.
    clear severity_of kept.
    intros v x D. destruct v as [s|z|b| |l|t]; cbn [d_profile]; try (split; [discriminate|intros H; inversion H]). split.
    - repeat (match goal with |- context [match ?a with Some _ => _ | None => None end] => destruct a eqn:? end; [|discriminate]). intros [= <-]. apply a_profile; cbn [own extends workshop dlc presets optionals parameters mission executable binarize file_patching instances rapify];
        first [now apply (opt_maybe t D _ _ (always _ _ r_str))|now apply (opt_maybe t D _ _ (always _ _ r_bool))|now apply (opt_maybe t D _ _ (always _ _ (r_num (2 ^ 8))))
              |now apply (dflt_given t D _ _ (always _ _ r_strings))|now apply (dflt_given t D _ _ (always _ _ (r_list _ _ r_dlc)))].
    - intros H. inversion H as [t' [e [w dl p o q m ex b f i r]] d oo H1 H2 H3 H4 H5 H6 H7 H8 H9 H10 H11 H12 E E']. subst. unfold d, oo in *. clear d oo. cbn [own extends workshop dlc presets optionals parameters mission executable binarize file_patching instances rapify] in *.
      apply (opt_maybe t D _ _ (always _ _ r_str)) in H1 as ->. apply (dflt_given t D _ _ (always _ _ r_strings)) in H2 as ->. apply (dflt_given t D _ _ (always _ _ (r_list _ _ r_dlc))) in H3 as ->.
      apply (dflt_given t D _ _ (always _ _ r_strings)) in H4 as ->. apply (dflt_given t D _ _ (always _ _ r_strings)) in H5 as ->. apply (dflt_given t D _ _ (always _ _ r_strings)) in H6 as ->.
      apply (opt_maybe t D _ _ (always _ _ r_str)) in H7 as ->. apply (opt_maybe t D _ _ (always _ _ r_str)) in H8 as ->. apply (opt_maybe t D _ _ (always _ _ r_bool)) in H9 as ->.
      apply (opt_maybe t D _ _ (always _ _ r_bool)) in H10 as ->. apply (opt_maybe t D _ _ (always _ _ (r_num (2 ^ 8)))) in H11 as ->. apply (opt_maybe t D _ _ (always _ _ r_bool)) in H12 as ->. reflexivity.
  Qed.
  Lemma lints_is t g : distinct (TTable t) -> (d_lints severity_of kept t = Some g <-> is_lints severity_of kept (TTable t) [] g).
  Proof.
    intros D. unfold d_lints. split.
    - repeat (match goal with |- context [match ?a with Some _ => _ | None => None end] => destruct a eqn:? end; [|discriminate]). intros [= <-]. constructor; now apply (dflt_given t D _ _ (r_map _ _ r_lint)).
    - destruct g as [c s x]. intros [H1 H2 H3]. cbn [l_config l_sqf l_stringtables app] in *. apply (dflt_given t D _ _ (r_map _ _ r_lint)) in H1 as ->.
      apply (dflt_given t D _ _ (r_map _ _ r_lint)) in H2 as ->. apply (dflt_given t D _ _ (r_map _ _ r_lint)) in H3 as ->. reflexivity.
  Qed.
End Kinds.

Lemma maybe_given {A} (P : toml -> A -> Prop) d p o y : maybe P d p o -> given P d p y (match o with Some a => a | None => y end).
Proof. intros [(v & a & S & Pa & ->)|(U & ->)]; [left; eauto|right; auto]. Qed.

Section Project.
  Context (lower : text -> text) (severity_of : text -> option severity) (kept : toml -> bytes).
  Notation pd := (is_pdrive lower).
  Record is_file (d : toml) (f : file_) : Prop := {
    i_name : exists v, says d [bs "name"] v /\ is_str v (f_name f);
    i_prefix : exists v, says d [bs "prefix"] v /\ is_str v (f_prefix f);
    i_mainprefix : maybe is_str d [bs "mainprefix"] (f_mainprefix f);
    i_version : is_version d (f_version f);
    i_properties : given (is_table is_str) d [bs "properties"] [] (f_properties f);
    i_include : given strings d [bs "files"; bs "include"] [] (f_include f);
    i_exclude : given strings d [bs "files"; bs "exclude"] [] (f_exclude f);
    i_lints : is_lints severity_of kept d [bs "lints"] (f_lints f);
    i_check : maybe pd d [bs "hemtt"; bs "check"; bs "pdrive"] (f_check_pdrive f);
    i_dev : given strings d [bs "hemtt"; bs "dev"; bs "exclude"] [] (f_dev_exclude f);
    i_launch : given (is_table (is_profile lower)) d [bs "hemtt"; bs "launch"] [] (f_launch f);
    i_folders : maybe is_bool d [bs "hemtt"; bs "build"; bs "optional_mod_folders"] (f_optional_mod_folders f);
    i_pdrive : maybe pd d [bs "hemtt"; bs "build"; bs "pdrive"] (f_build_pdrive f);
    i_folder : maybe is_str d [bs "hemtt"; bs "release"; bs "folder"] (f_folder f);
    i_sign : maybe is_bool d [bs "hemtt"; bs "release"; bs "sign"] (f_sign f);
    i_archive : maybe is_bool d [bs "hemtt"; bs "release"; bs "archive"] (f_archive f);
    i_signs : maybe is_signs d [bs "signing"; bs "version"] (f_sign_version f);
    i_authority : maybe is_str d [bs "signing"; bs "authority"] (f_authority f) }.

  Ltac down :=
    repeat match goal with
    | D : distinct (TTable ?t), S : section ?t ?k = Some ?s |- given _ (TTable ?t) (?k :: _ :: _) _ _ => apply (section_given t s k D S)
    | D : distinct (TTable ?t), S : section ?t ?k = Some ?s |- maybe _ (TTable ?t) (?k :: _ :: _) _ => apply (section_maybe t s k D S)
    | D : distinct (TTable ?t), S : section ?t ?k = Some ?s |- fits _ (TTable ?t) (?k :: _ :: _) => apply (section_fits t s k D S)
    end.
  Ltac field :=
    down;
    match goal with
    | |- maybe _ (TTable ?t) [?k] _ => match goal with D : distinct (TTable t), E : opt t k _ = Some _ |- _ => eapply (opt_maybe t D); [|exact E] end
    | |- given _ (TTable ?t) [?k] _ _ => match goal with D : distinct (TTable t), E : dflt _ t k _ = Some _ |- _ => eapply (dflt_given t D); [|exact E] end
    | |- exists v, says (TTable ?t) [?k] v /\ _ => match goal with D : distinct (TTable t), E : req t k _ = Some _ |- _ => eapply (req_says t D); [|exact E] end
    end;
    first [apply always, r_str|apply always, r_bool|apply always, r_num|apply always, r_strings|apply always, r_pdrive|apply always, r_signs|apply r_map, always, r_str|apply r_map, r_profile|apply r_map, r_lint].

  Lemma file_is t f : distinct (TTable t) -> d_project lower severity_of kept t = Some f -> is_file (TTable t) f.
  Proof.
    intros D. unfold d_project.
    repeat (match goal with |- (match ?a with Some _ => _ | None => None end) = _ -> _ => destruct a eqn:? end; [|discriminate]). intros [= <-].
    repeat match goal with D : distinct (TTable ?t), S : section ?t ?k = Some ?s |- _ => lazymatch goal with K : distinct (TTable s) |- _ => fail | _ => pose proof (section_distinct t s k D S) end end.
    match goal with H : d_version _ = Some _ |- _ => revert H; unfold d_version end.
    repeat (match goal with |- (match ?a with Some _ => _ | None => None end) = _ -> _ => destruct a eqn:? end; [|discriminate]). intros [= <-].
    match goal with H : d_lints _ _ _ = Some _ |- _ => revert H; unfold d_lints end.
    repeat (match goal with |- (match ?a with Some _ => _ | None => None end) = _ -> _ => destruct a eqn:? end; [|discriminate]). intros [= <-].
    constructor; cbn [f_name f_prefix f_mainprefix f_version f_properties f_include f_exclude f_lints f_check_pdrive f_dev_exclude f_launch f_optional_mod_folders f_build_pdrive f_folder f_sign f_archive f_sign_version f_authority].
    all: try field.
    - constructor; cbn [s_path s_major s_minor s_patch s_build s_git_hash]; field.
    - constructor; cbn [l_config l_sqf l_stringtables app]; field.
  Qed.

  Ltac kind := first [apply always, r_str|apply always, r_bool|apply always, r_num|apply always, r_strings|apply always, r_pdrive|apply always, r_signs|apply r_map, always, r_str|apply r_map, r_profile|apply r_map, r_lint].
  Ltac fit :=
    down;
    match goal with
    | |- fits _ (TTable ?t) [?k] => match goal with
        | D : distinct (TTable t), E : opt t k _ = Some _ |- _ => eapply (opt_fits t D); [|rewrite E; discriminate]
        | D : distinct (TTable t), E : dflt _ t k _ = Some _ |- _ => eapply (dflt_fits t D); [|rewrite E; discriminate]
        | D : distinct (TTable t), E : req t k ?d = Some _ |- _ => eapply (proj1 (A := fits _ _ _)), (req_fits t D); [|rewrite E; discriminate]
        end
    end; kind.
  Ltac in_list H := repeat (destruct H as [<-|H]; [|]); try destruct H.
  Lemma section_table t k s v : distinct (TTable t) -> section t k = Some s -> says (TTable t) [k] v -> exists x, v = TTable x.
  Proof. intros D E. apply (section_some t k D). congruence. Qed.

  Lemma file_fits t f : distinct (TTable t) -> d_project lower severity_of kept t = Some f -> well_kinded lower severity_of kept (TTable t).
  Proof.
    intros D. unfold d_project.
    repeat (match goal with |- (match ?a with Some _ => _ | None => None end) = _ -> _ => destruct a eqn:? end; [|discriminate]). intros _.
    repeat match goal with D : distinct (TTable ?t), S : section ?t ?k = Some ?s |- _ => lazymatch goal with K : distinct (TTable s) |- _ => fail | _ => pose proof (section_distinct t s k D S) end end.
    match goal with H : d_version _ = Some _ |- _ => revert H; unfold d_version end.
    repeat (match goal with |- (match ?a with Some _ => _ | None => None end) = _ -> _ => destruct a eqn:? end; [|discriminate]). intros _.
    match goal with H : d_lints _ _ _ = Some _ |- _ => revert H; unfold d_lints end.
    repeat (match goal with |- (match ?a with Some _ => _ | None => None end) = _ -> _ => destruct a eqn:? end; [|discriminate]). intros _.
    constructor.
    - intros p v I S. cbn [In] in I. destruct I as [<-|[<-|[<-|[<-|[<-|[<-|[<-|[<-|[<-|[]]]]]]]]]];
        repeat match goal with D : distinct (TTable ?t), E : section ?t ?k = Some ?s, S : says (TTable ?t) (?k :: _ :: _) _ |- _ => apply (section_says t s k D E) in S end;
        match goal with D : distinct (TTable ?t), E : section ?t ?k = Some ?s, S : says (TTable ?t) [?k] _ |- _ => exact (section_table t k s _ D E S) end.
    - split; intros U; apply (unsaid_one t D) in U; unfold req in *; rewrite U in *; discriminate.
    - intros p I. cbn [In] in I. destruct I as [<-|[<-|[<-|[<-|[<-|[<-|[]]]]]]]; fit.
    - intros p I. cbn [In] in I. destruct I as [<-|[<-|[<-|[]]]]; fit.
    - intros p I. cbn [In] in I. destruct I as [<-|[<-|[<-|[]]]]; fit.
    - intros p I. cbn [In] in I. destruct I as [<-|[<-|[<-|[<-|[]]]]]; fit.
    - fit.
    - intros p I. cbn [In] in I. destruct I as [<-|[<-|[]]]; fit.
    - fit.
    - fit.
    - fit.
    - intros p I. cbn [In] in I. destruct I as [<-|[<-|[<-|[]]]]; fit.
  Qed.

  Lemma fits_file t : distinct (TTable t) -> well_kinded lower severity_of kept (TTable t) -> exists f, d_project lower severity_of kept t = Some f.
  Proof.
    intros D [KS (KN & KP) K1 K2 K3 K4 K5 K6 K7 K8 K9 K10]. assert (G : d_project lower severity_of kept t <> None); [|destruct (d_project _ _ _ t); [eauto|congruence]].
    unfold d_project.
    Ltac up := repeat match goal with D : distinct (TTable ?t), S : section ?t ?k = Some ?s |- fits _ (TTable ?s) (_ :: _) => apply (section_fits t s k D S) end.
    Ltac known := match goal with
      | H : forall p, In p _ -> fits is_str _ p |- fits is_str _ _ => apply H; cbn [In]; tauto
      | H : forall p, In p _ -> fits is_bool _ p |- fits is_bool _ _ => apply H; cbn [In]; tauto
      | H : forall p, In p _ -> fits strings _ p |- fits strings _ _ => apply H; cbn [In]; tauto
      | H : forall p, In p _ -> fits (is_num (2 ^ 32)) _ p |- fits (is_num (2 ^ 32)) _ _ => apply H; cbn [In]; tauto
      | H : forall p, In p _ -> fits pd _ p |- fits pd _ _ => apply H; cbn [In]; tauto
      | H : forall p, In p _ -> fits (is_table (is_lint _ _)) _ p |- _ => apply H; cbn [In]; tauto
      | _ => assumption end.
    Ltac has := match goal with
      | |- req ?t _ _ <> None => match goal with D : distinct (TTable t) |- _ => eapply (req_fits t D); [kind|split; [known|assumption]] end
      | |- opt ?t _ _ <> None => match goal with D : distinct (TTable t) |- _ => eapply (opt_fits t D); [kind|up; known] end
      | |- dflt _ ?t _ _ <> None => match goal with D : distinct (TTable t) |- _ => eapply (dflt_fits t D); [kind|up; known] end
      end.
    Ltac step := match goal with |- (match ?a with Some _ => _ | None => None end) <> None => assert (a <> None); [|destruct a eqn:?; [|congruence]] end.
    assert (SEC : forall k, In [k] [[bs "version"]; [bs "files"]; [bs "lints"]; [bs "hemtt"]; [bs "signing"]] -> section t k <> None).
    { intros k I. apply (section_some t k D). intros v. apply KS. cbn [In] in *. tauto. }
    assert (SEC2 : forall h, section t (bs "hemtt") = Some h -> forall k, In [k] [[bs "check"]; [bs "dev"]; [bs "build"]; [bs "release"]] -> section h k <> None).
    { intros h Eh k I. pose proof (section_distinct t h _ D Eh) as Dh. apply (section_some h k Dh). intros v S. apply (section_says t h _ D Eh) in S. revert S. apply KS. cbn [In] in *.
      destruct I as [I|[I|[I|[I|[]]]]]; apply (f_equal (hd [])) in I; cbn [hd] in I; subst k; tauto. }
    Ltac sec := match goal with
      | S1 : forall k, In [k] _ -> section ?t k <> None |- section ?t _ <> None => apply S1; cbn [In]; tauto
      | S2 : forall h, Some ?l = Some h -> forall k, In [k] _ -> section h k <> None |- section ?l _ <> None => apply (S2 l eq_refl); cbn [In]; tauto end.
    Ltac go := step; [first [sec|has]|]; repeat match goal with D : distinct (TTable ?t), S : section ?t ?k = Some ?s |- _ => lazymatch goal with K : distinct (TTable s) |- _ => fail | _ => pose proof (section_distinct t s k D S) end end.
    do 4 go. step. { unfold d_version. do 6 go. discriminate. }
    do 5 go. step. { unfold d_lints. do 3 go. discriminate. }
    repeat go. discriminate.
  Qed.
End Project.
