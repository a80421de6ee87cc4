(** Comparisons in conditions: C71. *)
From Coq Require Import String ZArith.
From Verif Require Import Base.Tactics Base.Bytes Base.Ascii Base.Text Base.Sort Sqf.Ast Sqf.SourceSpec Config.PatchSpec Sqf.WalkSpec Sqf.WalkProofs Sqf.FormatModel
  Sqf.WalkModel Config.PatchModel Config.PatchProofs Sqf.CompareModel Sqf.CompareSpec Sqf.CompareProofs.
Local Open Scope N_scope.
Local Open Scope list_scope.

(** The condition of an [if] and what is reported of it. *)
Notation reported cond i := (exists usp l, s21 (EUnary (UNamed (bs "if")) cond usp) = Some l /\ In i l).
(** Two of the parts of a condition that [&&] joins, in order. *)
Notation joined g a b := (exists l1 l2 l3, conjuncts g = l1 ++ a :: l2 ++ b :: l3).

Theorem C71_never_panics : forall e, exists l, s21 e = Some l.
Proof.
  intros e. unfold s21. destruct e as [| | | | | | |[n| | |] arg sp| |]; eauto. destruct (eqb_bytes n (bs "if")); [|eauto]. destruct (reading arg) as (c & F & _). rewrite F. eexists; reflexivity.
Qed.
(** The meaning of [&&] and [||], for reference: a condition holds if one of its alternatives does, an alternative if all its parts do. *)
Theorem C71_parts_of_conditions : forall st e, (holds st e <-> exists g, In g (disjuncts e) /\ holds st g) /\ (holds st e <-> forall g, In g (conjuncts e) -> holds st g).
Proof. intros st e. split; [rewrite disjuncts_hold; apply Exists_exists|rewrite conjuncts_hold; apply Forall_forall]. Qed.

Lemma upright_leaf : forall cond g a x, upright cond -> finite cond -> In g (disjuncts cond) -> In a (conjuncts g) -> leaf a = [x] ->
  exists c k v n y, kind_of c = Some k /\ x = Compare k v n (full_span a) /\ f32_bits n y /\ forall st, faithful st -> exists r, relation c = Some r /\ (holds st a <-> r (value st v) (Z.of_N y)).
Proof.
  intros cond g a x U F Hg Ha Hx. destruct (parts_within g) as (P & _). destruct (P a Ha) as (Wa & Ca). assert (Wg := proj2 (parts_within cond) g Hg). assert (W := within_trans _ _ _ Wa Wg).
  destruct (leaf_shape a x Hx Ca) as (c & l & r & q & k & v & n & s1 & s2 & -> & Hk & -> & [(-> & ->)|(-> & ->)]).
  - destruct (F n s2) as (y & Hy); [eapply within_trans; [apply within_right; apply within_here|exact W]|]. exists c, k, v, n, y. split; [exact Hk|]. split; [reflexivity|]. split; [exact Hy|].
    intros st Hst. rewrite <- (Hst n y Hy). destruct c; try discriminate; eexists; (split; [reflexivity|]); cbn [holds relation]; tauto.
  - destruct (F n s1) as (y & Hy); [eapply within_trans; [apply within_left; apply within_here|exact W]|]. exists c, k, v, n, y. split; [exact Hk|]. split; [reflexivity|]. split; [exact Hy|].
    intros st Hst. rewrite <- (Hst n y Hy). assert (No : ~ ordering c) by (intros O; exact (U _ _ _ _ _ _ O W)).
    unfold ordering in No. destruct c; try discriminate; try tauto; eexists; (split; [reflexivity|]); cbn [holds relation]; intuition congruence.
Qed.
Lemma reported_spec : forall cond i, reported cond i <-> exists g a b x y, In g (disjuncts cond) /\ joined g a b /\ leaf a = [x] /\ leaf b = [y] /\ In i (pair_issue x y).
Proof.
  intros cond i. split.
  - intros (usp & l & E & H). rewrite issues_of in E. injection E as <-. apply in_flat_map in H as (g & Hg & H). apply pairs_spec in H as (l1 & a & l2 & b & l3 & x & y & E & Ha & Hb & Hi).
    exists g, a, b, x, y. eauto 10.
  - intros (g & a & b & x & y & Hg & (l1 & l2 & l3 & E) & Ha & Hb & Hi). exists (0, 0). eexists. split; [apply issues_of|]. apply in_flat_map. exists g. split; [exact Hg|].
    apply pairs_spec. exists l1, a, l2, b, l3, x, y. auto.
Qed.
Lemma check_cases : forall a b i, In i (pair_issue a b) -> check_issue a b = Some i \/ check_issue b a = Some i.
Proof.
  intros a b i H. unfold pair_issue in H. destruct (check_issue a b) as [j|]; [destruct H as [->|[]]; auto|]. destruct (check_issue b a) as [j|]; [destruct H as [->|[]]; auto|destruct H].
Qed.
(** Where variables are on the left: what is reported as impossible is two parts of one alternative that cannot both hold, so the
    alternative never does. *)
Theorem C71_impossible_is_impossible : forall cond sa sb, upright cond -> finite cond -> reported cond (Impossible, sa, sb) ->
  exists g a b, In g (disjuncts cond) /\ joined g a b /\ (full_span a = sa /\ full_span b = sb \/ full_span a = sb /\ full_span b = sa) /\
    forall st, faithful st -> ~ (holds st a /\ holds st b) /\ ~ holds st g.
Proof.
  intros cond sa sb U F H. apply reported_spec in H as (g & a & b & x & y & Hg & (l1 & l2 & l3 & E) & Hx & Hy & Hi).
  assert (Ia : In a (conjuncts g)) by (rewrite E; apply in_app_iff; right; now left).
  assert (Ib : In b (conjuncts g)) by (rewrite E; apply in_app_iff; right; right; apply in_app_iff; right; now left).
  destruct (upright_leaf cond g a x U F Hg Ia Hx) as (ca & ka & va & na & ya & Hka & -> & Hna & Ra). destruct (upright_leaf cond g b y U F Hg Ib Hy) as (cb & kb & vb & nb & yb & Hkb & -> & Hnb & Rb).
  exists g, a, b. split; [exact Hg|]. split; [eauto|].
  assert (K : (full_span a = sa /\ full_span b = sb \/ full_span a = sb /\ full_span b = sa) /\ forall st, faithful st -> ~ (holds st a /\ holds st b)).
  { destruct (key_order _ _ _ _ Hna Hnb) as (O1 & O2). destruct (key_order _ _ _ _ Hnb Hna) as (O3 & O4). apply check_cases in Hi as [Hi|Hi]; cbn [check_issue] in Hi.
    - destruct (eqb_bytes va vb) eqn:Ev; cbn [negb] in Hi; [|discriminate]. apply eqb_bytes_spec in Ev. subst vb.
      destruct ka, kb; try discriminate; (destruct (_ <? _) eqn:Ek in Hi || destruct (_ =? _) eqn:Ek in Hi); try discriminate; injection Hi as <- <-; (split; [auto|]); intros st Hst;
        destruct (Ra st Hst) as (ra & Era & Ha); destruct (Rb st Hst) as (rb & Erb & Hb); destruct ca; try discriminate; destruct cb; try discriminate; injection Era as <-; injection Erb as <-; rewrite Ha, Hb;
        (apply O1 in Ek || apply O2 in Ek); lia.
    - destruct (eqb_bytes vb va) eqn:Ev; cbn [negb] in Hi; [|discriminate]. apply eqb_bytes_spec in Ev. subst vb.
      destruct kb, ka; try discriminate; (destruct (_ <? _) eqn:Ek in Hi || destruct (_ =? _) eqn:Ek in Hi); try discriminate; injection Hi as <- <-; (split; [auto|]); intros st Hst;
        destruct (Ra st Hst) as (ra & Era & Ha); destruct (Rb st Hst) as (rb & Erb & Hb); destruct ca; try discriminate; destruct cb; try discriminate; injection Era as <-; injection Erb as <-; rewrite Ha, Hb;
        (apply O3 in Ek || apply O4 in Ek); lia. }
  destruct K as (K1 & K2). split; [exact K1|]. intros st Hst. split; [now apply K2|]. intros Hold. apply (K2 st Hst). rewrite conjuncts_hold, Forall_forall in Hold. split; apply Hold; assumption.
Qed.
(** And what is reported as overlapping is two parts of one alternative of which one follows from the other. *)
Theorem C71_overlapping_is_redundant : forall cond sa sb, upright cond -> finite cond -> reported cond (Overlapping, sa, sb) ->
  exists g a b, In g (disjuncts cond) /\ joined g a b /\ (full_span a = sa /\ full_span b = sb \/ full_span a = sb /\ full_span b = sa) /\
    ((forall st, faithful st -> holds st a -> holds st b) \/ (forall st, faithful st -> holds st b -> holds st a)).
Proof.
  intros cond sa sb U F H. apply reported_spec in H as (g & a & b & x & y & Hg & (l1 & l2 & l3 & E) & Hx & Hy & Hi).
  assert (Ia : In a (conjuncts g)) by (rewrite E; apply in_app_iff; right; now left).
  assert (Ib : In b (conjuncts g)) by (rewrite E; apply in_app_iff; right; right; apply in_app_iff; right; now left).
  destruct (upright_leaf cond g a x U F Hg Ia Hx) as (ca & ka & va & na & ya & Hka & -> & Hna & Ra). destruct (upright_leaf cond g b y U F Hg Ib Hy) as (cb & kb & vb & nb & yb & Hkb & -> & Hnb & Rb).
  exists g, a, b. split; [exact Hg|]. split; [eauto|]. destruct (key_order _ _ _ _ Hna Hnb) as (_ & O2). destruct (key_order _ _ _ _ Hnb Hna) as (_ & O4).
  assert (K : va = vb /\ (full_span a = sa /\ full_span b = sb \/ full_span a = sb /\ full_span b = sa) /\
    match ka, kb with (KGreater | KGreaterEq), (KGreater | KGreaterEq) | (KLess | KLessEq), (KLess | KLessEq) => True | KNotEq, KNotEq | KEq, KEq => ya = yb | _, _ => False end).
  { apply check_cases in Hi as [Hi|Hi]; cbn [check_issue] in Hi.
    - destruct (eqb_bytes va vb) eqn:Ev; cbn [negb] in Hi; [|discriminate]. apply eqb_bytes_spec in Ev. split; [exact Ev|].
      destruct ka, kb; try discriminate; try (destruct (_ <? _) eqn:Ek in Hi || destruct (_ =? _) eqn:Ek in Hi); try discriminate; injection Hi as <- <-; (split; [auto|]); try exact I; now apply O2.
    - destruct (eqb_bytes vb va) eqn:Ev; cbn [negb] in Hi; [|discriminate]. apply eqb_bytes_spec in Ev. split; [auto|].
      destruct kb, ka; try discriminate; try (destruct (_ <? _) eqn:Ek in Hi || destruct (_ =? _) eqn:Ek in Hi); try discriminate; injection Hi as <- <-; (split; [auto|]); try exact I; symmetry; now apply O4. }
  destruct K as (-> & K1 & K). split; [exact K1|].
  assert (D : forall st, faithful st -> exists ra rb, relation ca = Some ra /\ relation cb = Some rb /\ (holds st a <-> ra (value st vb) (Z.of_N ya)) /\ (holds st b <-> rb (value st vb) (Z.of_N yb))).
  { intros st Hst. destruct (Ra st Hst) as (ra & Era & Ha). destruct (Rb st Hst) as (rb & Erb & Hb). eauto 8. }
  destruct (N.lt_trichotomy ya yb) as [L|[L|L]]; destruct ca; try discriminate; destruct cb; try discriminate; injection Hka as <-; injection Hkb as <-; try contradiction; try lia;
    (((left; intros st Hst; destruct (D st Hst) as (ra & rb & Era & Erb & Ha & Hb); injection Era as <-; injection Erb as <-; rewrite Ha, Hb; lia) || fail) ||
     (right; intros st Hst; destruct (D st Hst) as (ra & rb & Era & Erb & Ha & Hb); injection Era as <-; injection Erb as <-; rewrite Ha, Hb; lia)).
Qed.
(** Bounds that exclude each other are not missed, in either order, nor are two bounds in the same direction. *)
Theorem C71_contrary_bounds_are_reported : forall cond g x c1 n1 y1 s1 t1 q1 c2 n2 y2 s2 t2 q2, In g (disjuncts cond) ->
  f32_bits n1 y1 -> f32_bits n2 y2 -> y1 < y2 -> (c1 = BLess \/ c1 = BLessEq) -> (c2 = BGreater \/ c2 = BGreaterEq) ->
  let a := EBinary c1 (EVar x s1) (ENumber n1 t1) q1 in let b := EBinary c2 (EVar x s2) (ENumber n2 t2) q2 in
  joined g a b \/ joined g b a -> reported cond (Impossible, full_span a, full_span b).
Proof.
  intros cond g x c1 n1 y1 s1 t1 q1 c2 n2 y2 s2 t2 q2 Hg H1 H2 L C1 C2 a b J. apply reported_spec.
  assert (exists k1, leaf a = [Compare k1 x n1 (full_span a)] /\ (k1 = KLess \/ k1 = KLessEq)) as (k1 & E1 & K1) by (destruct C1 as [->| ->]; eexists; split; [reflexivity|auto|reflexivity|auto]).
  assert (exists k2, leaf b = [Compare k2 x n2 (full_span b)] /\ (k2 = KGreater \/ k2 = KGreaterEq)) as (k2 & E2 & K2) by (destruct C2 as [->| ->]; eexists; split; [reflexivity|auto|reflexivity|auto]).
  assert (Ek : (key n1 <? key n2) = true) by (apply (key_order _ _ _ _ H1 H2); exact L).
  assert (R : eqb_bytes x x = true) by now apply eqb_bytes_spec.
  destruct J as [J|J]; [exists g, a, b|exists g, b, a]; do 2 eexists; (split; [exact Hg|]); (split; [exact J|]); (split; [eassumption|]); (split; [eassumption|]);
    unfold pair_issue; cbn [check_issue]; rewrite R; cbn [negb]; destruct K1 as [->| ->], K2 as [->| ->]; rewrite Ek; now left.
Qed.
Theorem C71_same_direction_is_reported : forall cond g x c1 n1 s1 t1 q1 c2 n2 s2 t2 q2, In g (disjuncts cond) ->
  ((c1 = BLess \/ c1 = BLessEq) /\ (c2 = BLess \/ c2 = BLessEq) \/ (c1 = BGreater \/ c1 = BGreaterEq) /\ (c2 = BGreater \/ c2 = BGreaterEq)) ->
  let a := EBinary c1 (EVar x s1) (ENumber n1 t1) q1 in let b := EBinary c2 (EVar x s2) (ENumber n2 t2) q2 in
  joined g a b -> reported cond (Overlapping, full_span a, full_span b).
Proof.
  intros cond g x c1 n1 s1 t1 q1 c2 n2 s2 t2 q2 Hg C a b J. apply reported_spec. assert (R : eqb_bytes x x = true) by now apply eqb_bytes_spec.
  exists g, a, b. destruct C as [([->| ->] & [->| ->])|([->| ->] & [->| ->])]; do 2 eexists; (split; [exact Hg|]); (split; [exact J|]); (split; [reflexivity|]); (split; [reflexivity|]);
    unfold pair_issue; cbn [check_issue]; rewrite R; now left.
Qed.

(** ** What it gets wrong *)
Definition literal71 (k : N) : N := if k =? 0 then 0 else if k =? 3 then 1077936128 else if k =? 5 then 1084227584 else 1092616192.
Definition lt71 (a b : expr) : expr := EBinary BLess a b (3, 4).
Definition gt71 (a b : expr) : expr := EBinary BGreater a b (3, 4).
Definition and71 (a b : expr) : expr := EBinary BAnd a b (10, 12).
Definition x71 (i : N) : expr := EVar (bs "_x") (i, i + 2).
Definition n71 (k i : N) : expr := ENumber (literal71 k) (i, i + 1).
Definition one71 : Z := 2 ^ 149.
Definition at71 (v : Z) (n : N -> Z) : state := State (fun _ => v) n (fun _ => True).
Lemma literals71 : f32_bits (literal71 0) 0 /\ f32_bits (literal71 3) (3 * 2 ^ 149) /\ f32_bits (literal71 5) (5 * 2 ^ 149) /\ f32_bits (literal71 10) (10 * 2 ^ 149).
Proof.
  split; [left; split; [reflexivity|reflexivity]|]. split; [right; exists 128, 4194304|split; right; [exists 129, 2097152|exists 130, 2097152]]; (split; [lia|]); repeat split; vm_compute; reflexivity.
Qed.
(** A number on the left is read as if it were on the right. [0 < _x && _x < 10] is reported as overlapping, though each part can
    hold without the other. *)
Theorem C71_between_refuted : exists sa sb, let a := lt71 (n71 0 1) (x71 5) in let b := lt71 (x71 13) (n71 10 18) in
  reported (and71 a b) (Overlapping, sa, sb) /\
  (exists st, faithful st /\ holds st a /\ ~ holds st b) /\ (exists st, faithful st /\ holds st b /\ ~ holds st a).
Proof.
  exists (1, 7), (13, 19). split; [|].
  - exists (0, 2). eexists. split; [vm_compute; reflexivity|now left].
  - destruct literals71 as (L0 & _ & _ & L10).
    assert (S : exists n, forall b x, f32_bits b x -> n b = Z.of_N x).
    { exists (fun b => Z.of_N (PatchModel.steps b)). intros b x H. now rewrite (proj1 (PatchProofs.bits_steps _ _ H)). }
    destruct S as (n & Hn). assert (F : forall v, faithful (at71 v n)) by (intros v b x H; apply Hn; exact H).
    pose proof (Hn _ _ L0) as E0. pose proof (Hn _ _ L10) as E10.
    split; [exists (at71 (11 * one71)%Z n)|exists (at71 (-1)%Z n)]; (split; [apply F|]); unfold lt71, n71, x71; cbn [holds relation value number at71]; rewrite ?E0, ?E10; unfold one71;
      change (Z.of_N (10 * 2 ^ 149)) with (10 * 2 ^ 149)%Z; change (Z.of_N 0) with 0%Z; (assert (0 < 2 ^ 149)%Z by reflexivity); lia.
Qed.
(** [3 < _x && _x > 5] is reported as impossible, though it holds for 10. *)
Theorem C71_reversed_refuted : exists sa sb, let c := and71 (lt71 (n71 3 1) (x71 5)) (gt71 (x71 13) (n71 5 18)) in
  reported c (Impossible, sa, sb) /\ exists st, faithful st /\ holds st c.
Proof.
  exists (1, 7), (13, 19). split.
  - exists (0, 2). eexists. split; [vm_compute; reflexivity|now left].
  - destruct literals71 as (_ & L3 & L5 & _).
    exists (at71 (10 * one71)%Z (fun b => Z.of_N (PatchModel.steps b))). split; [intros b x H; cbn [number at71]; now rewrite (proj1 (PatchProofs.bits_steps _ _ H))|].
    unfold and71, lt71, gt71, n71, x71. cbn [holds relation value number at71]. rewrite (proj1 (PatchProofs.bits_steps _ _ L3)), (proj1 (PatchProofs.bits_steps _ _ L5)). unfold one71.
    change (Z.of_N (3 * 2 ^ 149)) with (3 * 2 ^ 149)%Z. change (Z.of_N (5 * 2 ^ 149)) with (5 * 2 ^ 149)%Z. assert (0 < 2 ^ 149)%Z by reflexivity. lia.
Qed.
(** [_x < 3 && _x > 3] never holds and is not reported. *)
Theorem C71_equal_bounds_missed_refuted : let c := and71 (lt71 (x71 1) (n71 3 6)) (gt71 (x71 13) (n71 3 18)) in
  (forall usp, s21 (EUnary (UNamed (bs "if")) c usp) = Some []) /\ forall st, ~ holds st c.
Proof. split; [intros usp; vm_compute; reflexivity|]. intros st. unfold and71, lt71, gt71, x71, n71. cbn [holds relation]. lia. Qed.
Print Assumptions C71_never_panics.
Print Assumptions C71_parts_of_conditions.
Print Assumptions C71_impossible_is_impossible.
Print Assumptions C71_overlapping_is_redundant.
Print Assumptions C71_contrary_bounds_are_reported.
Print Assumptions C71_same_direction_is_reported.
Print Assumptions C71_between_refuted.
Print Assumptions C71_reversed_refuted.
Print Assumptions C71_equal_bounds_missed_refuted.

(** [if (player || {_x < 3 && true && _x > 5})]: an impossible alternative, in a condition that meets the hypotheses. *)
Definition cond71 : expr := EBinary BOr (ENular (bs "player") (0, 6))
  (ECode [SExpr (and71 (and71 (lt71 (x71 1) (n71 3 6)) (EBool true (30, 34))) (gt71 (x71 13) (n71 5 18))) (1, 19)] [] (1, 19)) (7, 9).
Example C71_case : reported cond71 (Impossible, (1, 7), (13, 19)) /\ upright cond71 /\ finite cond71.
Proof.
  split; [exists (0, 2); eexists; split; [vm_compute; reflexivity|now left]|].
  destruct literals71 as (_ & L3 & L5 & _).
  assert (W : forall e, within e cond71 -> In e (WalkModel.walk_expressions cond71)) by (intros e H; now apply WalkProofs.walk_expressions_spec). 
  split.
  - intros c n s1 x s2 sp O H. apply W in H. cbn in H. repeat (destruct H as [H|H]; [discriminate|]). destruct H.
  - intros n sp H. apply W in H. cbn in H. repeat (destruct H as [H|H]; [try discriminate; injection H as <- _; eauto|]). destruct H.
Qed.
