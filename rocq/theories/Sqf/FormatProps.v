(** Format strings: C70. *)
From Coq Require Import String.
From Verif Require Import Base.Tactics Base.Bytes Base.Ascii Base.Text Base.Sort Sqf.Ast Sqf.SourceSpec Sqf.WalkModel Sqf.WalkSpec Sqf.WalkProps Sqf.FormatModel Sqf.FormatSpec.
Local Open Scope N_scope.
Local Open Scope list_scope.

Lemma scan_start : forall format rest i s s' ts, scan format rest i false s ts = scan format rest i false s' ts.
Proof.
  intros format rest. induction rest as [|c r IH]; intros i s s' ts; [reflexivity|]. cbn [scan andb negb orb]. destruct ((c =? 37)); cbn [andb]; [reflexivity|apply IH].
Qed.
Lemma scan_digits : forall format d r i s ts, all_digits d -> scan format (d ++ r) i true s ts = scan format r (i + N.of_nat (length d)) true s ts.
Proof.
  intros format d r. induction d as [|c d IH]; intros i s ts H; [now rewrite N.add_0_r|]. inversion H as [|? ? Hc Hd]; subst. cbn [app scan length]. rewrite Hc. cbn [andb negb].
  rewrite IH by exact Hd. f_equal. lia.
Qed.
Lemma scan_close : forall format c r i s ts, is_digit c = false -> s < i ->
  scan format (c :: r) i true s ts = scan format (c :: r) i false s (ts ++ [parse_index (skipn (N.to_nat s) (firstn (N.to_nat i) format))]).
Proof. intros format c r i s ts Hc Hs. cbn [scan]. rewrite Hc, (proj2 (N.ltb_lt _ _) Hs). cbn [andb negb orb]. reflexivity. Qed.
Lemma scan_plain : forall format c r i s ts, c <> 37 -> scan format (c :: r) i false s ts = scan format r (i + 1) false s ts.
Proof. intros format c r i s ts Hc. apply N.eqb_neq in Hc. cbn [scan]. now rewrite Hc. Qed.
Lemma scan_open : forall format r i s ts, scan format (37 :: r) i false s ts = scan format r (i + 1) true (i + 1) ts.
Proof. reflexivity. Qed.
Lemma scan_escape : forall format r i ts, scan format (37 :: r) i true i ts = scan format r (i + 1) false i ts.
Proof. intros format r i ts. cbn [scan]. rewrite N.ltb_irrefl. reflexivity. Qed.
Lemma index_value : forall d v, index_of d v -> parse_index d = v.
Proof. intros d v (n & E & H). unfold parse_index. rewrite E. destruct H as [(H & ->)|(H & ->)]; [now rewrite (proj2 (N.ltb_lt _ _) H)|now rewrite (proj2 (N.ltb_ge _ _) H)]. Qed.
Lemma scan_placeholders : forall s vs, placeholders s vs -> forall format pre c r st ts, is_digit c = false -> format = pre ++ s ++ c :: r ->
  scan format (s ++ c :: r) (N.of_nat (length pre)) false st ts = scan format (c :: r) (N.of_nat (length pre) + N.of_nat (length s)) false st (ts ++ vs).
Proof.
  intros s vs H. induction H as [|x s vs Hx H IH|s vs H IH|d v s vs Hd Hds Hv Hn H IH]; intros format pre c r st ts Hc E.
  - cbn [app length]. now rewrite N.add_0_r, app_nil_r.
  - cbn [app]. rewrite scan_plain by exact Hx. specialize (IH format (pre ++ [x]) c r st ts Hc). rewrite app_length in IH.
    replace (N.of_nat (length pre + length [x])) with (N.of_nat (length pre) + 1) in IH by (cbn [length]; lia). rewrite IH by (rewrite E, <- app_assoc; reflexivity). f_equal. cbn [length]. lia.
  - cbn [app]. rewrite scan_open, scan_escape.
    specialize (IH format (pre ++ [37; 37]) c r (N.of_nat (length pre) + 1) ts Hc). rewrite app_length in IH.
    replace (N.of_nat (length pre + length [37; 37])) with (N.of_nat (length pre) + 1 + 1) in IH by (cbn [length]; lia). rewrite IH by (rewrite E, <- app_assoc; reflexivity).
    rewrite (scan_start _ _ _ _ st). f_equal. cbn [length]. lia.
  - assert (K : forall q0 q, s ++ c :: r = q0 :: q -> is_digit q0 = false). { intros q0 q Eq. destruct s as [|y s]; injection Eq as <- _; [exact Hc|exact Hn]. }
    destruct (s ++ c :: r) as [|q0 q] eqn:Eq; [destruct s; discriminate|]. specialize (K _ _ eq_refl).
    replace ((37 :: d ++ s) ++ c :: r) with (37 :: d ++ q0 :: q) in * by (cbn [app]; rewrite <- app_assoc, Eq; reflexivity).
    rewrite scan_open, scan_digits by exact Hds.
    rewrite scan_close; [|exact K|destruct d; [congruence|cbn [length]; lia]].
    replace (parse_index _) with v.
    2:{ symmetry. replace (skipn _ _) with d; [now apply index_value|]. rewrite E. replace (pre ++ 37 :: d ++ q0 :: q) with ((pre ++ [37]) ++ d ++ q0 :: q) by (rewrite <- app_assoc; reflexivity).
        replace (N.to_nat (N.of_nat (length pre) + 1)) with (length (pre ++ [37])) by (rewrite app_length; cbn [length]; lia).
        replace (N.to_nat (N.of_nat (length pre) + 1 + N.of_nat (length d))) with (length ((pre ++ [37]) ++ d)) by (rewrite !app_length; cbn [length]; lia).
        rewrite app_assoc, firstn_app, firstn_all, Nat.sub_diag. cbn [firstn]. rewrite app_nil_r, skipn_app, skipn_all, Nat.sub_diag. reflexivity. }
    specialize (IH format (pre ++ 37 :: d) c r (N.of_nat (length pre) + 1) (ts ++ [v]) Hc). rewrite Eq in IH. rewrite app_length in IH. cbn [length] in IH.
    replace (N.of_nat (length pre + S (length d))) with (N.of_nat (length pre) + 1 + N.of_nat (length d)) in IH by lia.
    rewrite IH. 2:{ rewrite E, <- app_assoc. reflexivity. } rewrite <- app_assoc. cbn [app]. rewrite (scan_start _ _ _ _ st). f_equal. cbn [length]. rewrite app_length. lia.
Qed.
(** What the loop gives. *)
Lemma scan_tokens : forall s vs, placeholders s vs -> scan (s ++ [32]) (s ++ [32]) 0 false 0 [] = inr vs.
Proof. intros s vs H. exact (scan_placeholders s vs H (s ++ [32]) [] 32 [] 0 [] eq_refl eq_refl). Qed.
Lemma scan_stray : forall s i, stray s i -> scan (s ++ [32]) (s ++ [32]) 0 false 0 [] = inl i.
Proof.
  intros s i (pre & vs & post & -> & H & Hd & Hp & ->).
  replace ((pre ++ 37 :: post) ++ [32]) with (pre ++ 37 :: post ++ [32]) by (rewrite <- app_assoc; reflexivity).
  etransitivity; [exact (scan_placeholders pre vs H _ [] 37 (post ++ [32]) 0 [] eq_refl eq_refl)|]. cbn [length]. change (N.of_nat 0) with 0. rewrite N.add_0_l.
  cbn [scan andb negb orb]. change (37 =? 37) with true. cbn [andb].
  assert (K : exists c r, post ++ [32] = c :: r /\ is_digit c = false /\ (c =? 37) = false).
  { destruct post as [|c r]; [exists 32, []; auto|]. exists c, (r ++ [32]). split; [reflexivity|]. split; [exact Hd|]. apply N.eqb_neq. intros ->. now apply (Hp r). }
  destruct K as (c & r & -> & Kd & Kp). cbn [scan]. rewrite Kd, Kp, N.ltb_irrefl. reflexivity.
Qed.
Lemma take_digits : forall s, exists d r, s = d ++ r /\ all_digits d /\ no_digit_first r.
Proof.
  induction s as [|c s (d & r & -> & Hd & Hr)]; [exists [], []; repeat constructor|]. destruct (is_digit c) eqn:E.
  - exists (c :: d), r. split; [reflexivity|]. split; [now constructor|exact Hr].
  - exists [], (c :: d ++ r). split; [reflexivity|]. split; [constructor|exact E].
Qed.
Lemma digits_have_value : forall d acc, all_digits d -> exists n, digits_val acc d = Some n.
Proof. induction d as [|c d IH]; intros acc H; [eexists; reflexivity|]. inversion H as [|? ? Hc Hd]; subst. cbn [digits_val]. rewrite Hc. now apply IH. Qed.
Lemma every_format : forall s, (exists vs, placeholders s vs) \/ exists i, stray s i.
Proof.
  intros s. remember (length s) as k eqn:E. assert (L : (length s <= k)%nat) by lia. clear E. revert s L. induction k as [|k IH]; intros s L.
  - destruct s; [left; exists []; constructor|cbn in L; lia].
  - destruct s as [|c s]; [left; exists []; constructor|]. cbn [length] in L. destruct (N.eq_dec c 37) as [->|Hc].
    + destruct s as [|c s]; [right; exists 1, [], [], []; repeat split; [constructor|discriminate]|]. cbn [length] in L. destruct (N.eq_dec c 37) as [->|Hc].
      * destruct (IH s ltac:(lia)) as [(vs & H)|(i & pre & vs & post & -> & H & A & B & ->)]; [left; exists vs; now constructor|].
        right. exists (N.of_nat (length (37 :: 37 :: pre)) + 1), (37 :: 37 :: pre), vs, post. split; [reflexivity|]. split; [now constructor|auto].
      * destruct (take_digits (c :: s)) as (d & r & E & Hd & Hr). destruct d as [|x d].
        -- right. exists 1, [], [], (c :: s). cbn [app] in E. subst r. split; [reflexivity|]. split; [constructor|]. split; [exact Hr|]. split; [intros r; congruence|reflexivity].
        -- injection E as -> ->. destruct (digits_have_value (x :: d) 0 Hd) as (n & En).
           assert (V : exists v, index_of (x :: d) v). { destruct (N.lt_ge_cases n (2 ^ 64)); [exists n|exists 0]; exists n; auto. } destruct V as (v & V).
           rewrite app_length in L. destruct (IH r ltac:(lia)) as [(vs & H)|(i & pre & vs & post & -> & H & A & B & ->)].
           ++ left. exists (v :: vs). change (37 :: x :: d ++ r) with (37 :: (x :: d) ++ r). now constructor.
           ++ right. exists (N.of_nat (length (37 :: (x :: d) ++ pre)) + 1), (37 :: (x :: d) ++ pre), (v :: vs), post.
              split; [cbn [app]; rewrite <- app_assoc; reflexivity|]. split; [|auto]. apply ph_index; auto; [discriminate|]. destruct pre; [exact I|exact Hr].
    + destruct (IH s ltac:(lia)) as [(vs & H)|(i & pre & vs & post & -> & H & A & B & ->)]; [left; exists vs; now constructor|].
      right. exists (N.of_nat (length (c :: pre)) + 1), (c :: pre), vs, post. split; [reflexivity|]. split; [now constructor|auto].
Qed.
Lemma max_greatest : forall l, greatest l (max_of l).
Proof.
  intros l. unfold max_of. assert (K : forall l a, (forall v, In v l -> v <= fold_left N.max l a) /\ a <= fold_left N.max l a /\ (In (fold_left N.max l a) l \/ fold_left N.max l a = a)).
  { clear. induction l as [|x l IH]; intros a; cbn [fold_left]; [split; [intros v []|]; split; [lia|auto]|]. destruct (IH (N.max a x)) as (H1 & H2 & H3). split; [|split].
    - intros v [<-|Hv]; [lia|auto].
    - lia.
    - destruct H3 as [H3|H3]; [left; now right|]. destruct (N.max_spec a x) as [(_ & E)|(_ & E)]; rewrite H3, E; [left; now left|now right]. }
  destruct (K l 0) as (H1 & H2 & H3). split; [exact H1|]. destruct H3 as [H3|H3]; [now left|]. destruct l as [|x l]; [right; auto|]. left. rewrite H3. specialize (H1 x (or_introl eq_refl)). rewrite H3 in H1.
  replace 0 with x by lia. now left.
Qed.
Lemma greatest_unique : forall l a b, greatest l a -> greatest l b -> a = b.
Proof.
  intros l a b (A1 & A2) (B1 & B2). destruct A2 as [A2|(-> & ->)], B2 as [B2|(E & ->)]; subst; try (destruct A2; fail); try (destruct B2; fail); try reflexivity. apply A1 in B2. apply B1 in A2. lia.
Qed.

(** Every format string is one of placeholders or has a stray percent sign; what is found follows from that alone. *)
Theorem C70_every_format : forall s, (exists vs, placeholders s vs) \/ exists i, stray s i.
Proof. exact every_format. Qed.
Theorem C70_stray_percent : forall s n i, get_format_problem s n = Some (Unescaped i) <-> stray s i.
Proof.
  intros s n i. unfold get_format_problem. split.
  - intros H. destruct (every_format s) as [(vs & P)|(j & P)]; [|rewrite (scan_stray _ _ P) in H; now injection H as <-]. rewrite (scan_tokens _ _ P) in H.
    destruct (n ?= _); try discriminate. destruct (_ <? _); discriminate.
  - intros P. now rewrite (scan_stray _ _ P).
Qed.
Lemma problem_of : forall s vs n, placeholders s vs -> get_format_problem s n =
  match n ?= max_of vs with Lt => Some (Undefined (max_of vs) n) | Gt => Some (Unused (max_of vs) n)
  | Eq => if N.of_nat (length vs) <? max_of vs then Some (Skipped (max_of vs) (N.of_nat (length vs))) else None end.
Proof. intros s vs n P. unfold get_format_problem. now rewrite (scan_tokens _ _ P). Qed.
Lemma placed : forall s n p, get_format_problem s n = p -> (forall i, p <> Some (Unescaped i)) -> exists vs, placeholders s vs.
Proof. intros s n p H N. destruct (every_format s) as [|(i & P)]; [assumption|]. apply (C70_stray_percent s n) in P. rewrite P in H. subst p. now destruct (N i). Qed.
Theorem C70_undefined : forall s n m k, get_format_problem s n = Some (Undefined m k) <-> k = n /\ exists vs, placeholders s vs /\ greatest vs m /\ n < m.
Proof.
  intros s n m k. split.
  - intros H. destruct (placed _ _ _ H ltac:(discriminate)) as (vs & P). rewrite (problem_of _ _ _ P) in H. destruct (N.compare_spec n (max_of vs)) as [E|E|E]; try discriminate.
    + destruct (_ <? _); discriminate.
    + injection H as <- <-. split; [reflexivity|]. exists vs. split; [exact P|]. split; [apply max_greatest|exact E].
  - intros (-> & vs & P & G & L). rewrite (problem_of _ _ _ P), (greatest_unique _ _ _ (max_greatest vs) G). now rewrite (proj2 (N.compare_lt_iff _ _) L).
Qed.
Theorem C70_unused : forall s n m k, get_format_problem s n = Some (Unused m k) <-> k = n /\ exists vs, placeholders s vs /\ greatest vs m /\ m < n.
Proof.
  intros s n m k. split.
  - intros H. destruct (placed _ _ _ H ltac:(discriminate)) as (vs & P). rewrite (problem_of _ _ _ P) in H. destruct (N.compare_spec n (max_of vs)) as [E|E|E]; try discriminate.
    + destruct (_ <? _); discriminate.
    + injection H as <- <-. split; [reflexivity|]. exists vs. split; [exact P|]. split; [apply max_greatest|exact E].
  - intros (-> & vs & P & G & L). rewrite (problem_of _ _ _ P), (greatest_unique _ _ _ (max_greatest vs) G). now rewrite (proj2 (N.compare_gt_iff _ _) L).
Qed.
Theorem C70_skipped : forall s n m k, get_format_problem s n = Some (Skipped m k) <-> m = n /\ exists vs, placeholders s vs /\ greatest vs m /\ k = N.of_nat (length vs) /\ k < m.
Proof.
  intros s n m k. split.
  - intros H. destruct (placed _ _ _ H ltac:(discriminate)) as (vs & P). rewrite (problem_of _ _ _ P) in H. destruct (N.compare_spec n (max_of vs)) as [E|E|E]; try discriminate.
    destruct (N.ltb_spec (N.of_nat (length vs)) (max_of vs)) as [L|L]; [|discriminate]. injection H as <- <-. split; [auto|]. exists vs. split; [exact P|]. split; [apply max_greatest|auto].
  - intros (-> & vs & P & G & -> & L). rewrite (problem_of _ _ _ P), (greatest_unique _ _ _ (max_greatest vs) G), N.compare_refl. now rewrite (proj2 (N.ltb_lt _ _) L).
Qed.
Theorem C70_accepted : forall s n, get_format_problem s n = None <-> exists vs, placeholders s vs /\ greatest vs n /\ n <= N.of_nat (length vs).
Proof.
  intros s n. split.
  - intros H. destruct (placed _ _ _ H ltac:(discriminate)) as (vs & P). rewrite (problem_of _ _ _ P) in H. destruct (N.compare_spec n (max_of vs)) as [E|E|E]; try discriminate.
    destruct (N.ltb_spec (N.of_nat (length vs)) (max_of vs)) as [L|L]; [discriminate|]. exists vs. rewrite E. split; [exact P|]. split; [apply max_greatest|exact L].
  - intros (vs & P & G & L). rewrite (problem_of _ _ _ P), (greatest_unique _ _ _ (max_greatest vs) G), N.compare_refl. now rewrite (proj2 (N.ltb_ge _ _) L).
Qed.
(** So where no placeholder is used twice (and none is [%0]), nothing is reported exactly if each argument is used, once. *)
Theorem C70_each_argument_once : forall s n vs, placeholders s vs -> NoDup vs -> ~ In 0 vs ->
  (get_format_problem s (N.of_nat n) = None <-> Permutation vs (map N.of_nat (seq 1 n))).
Proof.
  intros s n vs P D Z. rewrite C70_accepted. assert (ND : NoDup (map N.of_nat (seq 1 n))) by (apply FinFun.Injective_map_NoDup; [intros a b; lia|apply seq_NoDup]). split.
  - intros (vs' & P' & (G & _) & L). assert (vs' = vs) as -> by (apply scan_tokens in P, P'; congruence). apply NoDup_Permutation_bis; auto.
    + rewrite map_length, seq_length. lia.
    + intros v Hv. specialize (G v Hv). apply in_map_iff. exists (N.to_nat v). split; [lia|]. apply in_seq. assert (v <> 0) by congruence. lia.
  - intros H. exists vs. split; [exact P|]. assert (Len : length vs = n) by (rewrite (Permutation_length H), map_length; apply seq_length). split; [split|lia].
    + intros v Hv. apply (Permutation_in v H) in Hv. apply in_map_iff in Hv as (k & <- & Hk). apply in_seq in Hk. lia.
    + destruct n as [|n]; [right; split; [now destruct vs|reflexivity]|]. left. apply (Permutation_in _ (Permutation_sym H)). apply in_map. apply in_seq. lia.
Qed.
(** Where one is used twice, an argument may be left out unnoticed: [%1 %1 %3]. *)
Theorem C70_repeated_placeholder_refuted : placeholders (bs "%1 %1 %3") [1; 1; 3] /\ get_format_problem (bs "%1 %1 %3") 3 = None.
Proof.
  split; [|vm_compute; reflexivity]. assert (P : forall d v s vs, is_digit d = true -> index_of [d] v -> no_digit_first s -> placeholders s vs -> placeholders (37 :: d :: s) (v :: vs)).
  { intros d v s vs Hd Hv Hs H. apply (ph_index [d] v s vs); auto; [discriminate|now constructor]. }
  assert (V : forall d n, digits_val 0 [d] = Some n -> n < 2 ^ 64 -> index_of [d] n) by (intros d n E L; exists n; auto).
  change (bs "%1 %1 %3") with [37; 49; 32; 37; 49; 32; 37; 51].
  apply P; [reflexivity|apply V; [reflexivity|reflexivity]|reflexivity|]. apply ph_char; [discriminate|].
  apply P; [reflexivity|apply V; [reflexivity|reflexivity]|reflexivity|]. apply ph_char; [discriminate|].
  apply P; [reflexivity|apply V; [reflexivity|reflexivity]|exact I|]. constructor.
Qed.
(** A placeholder too big for a machine word counts as [%0]: this is accepted with no arguments. *)
Theorem C70_big_placeholder_refuted : get_format_problem (bs "%18446744073709551616") 0 = None.
Proof. vm_compute. reflexivity. Qed.

(** The lint itself: of a script it reports these problems, at the [format] and [formatText] commands with an array. *)
Theorem C70_reports : forall lower script sp p, In (sp, p) (analyze_script (s08 lower) script) <->
  exists name args asp csp, part (EUnary (UNamed name) (EArray args asp) csp) script /\ (lower name = bs "format" \/ lower name = bs "formattext") /\
    sp = (fst csp, snd asp) /\
    (args = [] /\ p = EmptyArray \/ exists f fsp w r, args = EString f fsp w :: r /\ get_format_problem f (N.of_nat (length r)) = Some p).
Proof.
  intros lower script sp p. rewrite C68_lints_see_everything. split.
  - intros [(c & _ & [])|[(c & s & _ & _ & [])|[(e & P & H)|(e & n & q & _ & _ & [])]]]. cbn [s08] in H.
    destruct e as [| | | | | | |[name| | |] [| | | |args asp| | | | |] csp| |]; try (destruct H; fail).
    destruct (eqb_bytes (lower name) (bs "format")) eqn:E1, (eqb_bytes (lower name) (bs "formattext")) eqn:E2; cbn [negb andb] in H; try (destruct H; fail);
      (exists name, args, asp, csp; split; [exact P|]; split; [apply eqb_bytes_spec in E1 || apply eqb_bytes_spec in E2; auto|];
       destruct args as [|a args]; [destruct H as [H|[]]; injection H as <- <-; auto|]; destruct a as [|f fsp w| | | | | | | |]; try (destruct H; fail);
       destruct (get_format_problem f _) as [q|] eqn:Ep; [|destruct H]; destruct H as [H|[]]; injection H as <- <-; split; [reflexivity|]; right; eauto 8).
  - intros (name & args & asp & csp & P & Hn & -> & H). right. right. left. exists (EUnary (UNamed name) (EArray args asp) csp). split; [exact P|]. cbn [s08].
    replace (negb (eqb_bytes (lower name) (bs "format")) && negb (eqb_bytes (lower name) (bs "formattext"))) with false.
    + destruct H as [(-> & ->)|(f & fsp & w & r & -> & ->)]; left; reflexivity.
    + symmetry. apply andb_false_iff. destruct Hn as [Hn|Hn]; [left|right]; rewrite Hn; vm_compute; reflexivity.
Qed.
Print Assumptions C70_every_format.
Print Assumptions C70_stray_percent.
Print Assumptions C70_undefined.
Print Assumptions C70_unused.
Print Assumptions C70_skipped.
Print Assumptions C70_accepted.
Print Assumptions C70_each_argument_once.
Print Assumptions C70_repeated_placeholder_refuted.
Print Assumptions C70_big_placeholder_refuted.
Print Assumptions C70_reports.

Example C70_cases : get_format_problem (bs "%1 of 100%%: %2") 2 = None /\ get_format_problem (bs "%1 of 100%") 1 = Some (Unescaped 10) /\
  get_format_problem (bs "%2") 1 = Some (Undefined 2 1) /\ get_format_problem (bs "%1%2") 3 = Some (Unused 2 3) /\ get_format_problem (bs "%2") 2 = Some (Skipped 2 1).
Proof. vm_compute. auto. Qed.
Example C70_script : analyze_script (s08 to_ascii_lower) [SExpr (EUnary (UNamed (bs "hint")) (EUnary (UNamed (bs "formatText")) (EArray [EString (bs "%1") (17, 21) DoubleQuote] (16, 22)) (5, 15)) (0, 4)) (0, 22)] =
  [((5, 22), Undefined 1 0)].
Proof. vm_compute. reflexivity. Qed.
