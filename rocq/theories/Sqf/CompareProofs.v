From Coq Require Import String ZArith.
From Verif Require Import Base.Tactics Base.Bytes Base.Ascii Base.Text Base.Sort Sqf.Ast Sqf.SourceSpec Config.PatchSpec Sqf.WalkProofs Sqf.FormatModel Sqf.CompareModel Sqf.CompareSpec.
Local Open Scope N_scope.
Local Open Scope list_scope.

Definition is_compare (c : comparison) : bool := match c with Compare _ _ _ _ => true | _ => false end.
Definition leaf (e : expr) : list comparison := match extract_comparisons e with Compare k v n sp => [Compare k v n sp] | _ => [] end.
Definition item (c : comparison) : list comparison :=
  match c with CompareGroup l => l | NonCompareGroup l => [NonCompareGroup l] | Ignored => [] | Compare _ _ _ _ => [c] end.
Lemma pair_none : forall a b, is_compare a = false \/ is_compare b = false -> pair_issue a b = [].
Proof. intros a b [H|H]; destruct a, b; try discriminate; reflexivity. Qed.
Lemma pairs_filter : forall l, pairs l = pairs (filter is_compare l).
Proof.
  induction l as [|a l IH]; [reflexivity|]. cbn [pairs filter]. destruct (is_compare a) eqn:E; cbn [pairs]; rewrite IH; [|].
  - f_equal. clear IH. induction l as [|b l IH]; [reflexivity|]. cbn [flat_map filter]. rewrite IH. destruct (is_compare b) eqn:Eb; [reflexivity|]. now rewrite pair_none by auto.
  - replace (flat_map (pair_issue a) l) with (@nil (issue * span * span)); [reflexivity|]. clear IH. induction l as [|b l IH]; [reflexivity|]. cbn [flat_map]. rewrite <- IH. now rewrite pair_none by auto.
Qed.

Definition read_of (e : expr) (c : comparison) : Prop :=
  flatten (extract_comparisons e) = Some c /\
  match extract_comparisons e with
  | CompareGroup _ => exists l, c = CompareGroup l
  | NonCompareGroup _ => exists l, c = NonCompareGroup l
  | x => c = x
  end /\
  filter is_compare (item c) = flat_map leaf (conjuncts e) /\
  find_issues c = flat_map (fun g => pairs (flat_map leaf (conjuncts g))) (disjuncts e).
Lemma reading : forall e, exists c, read_of e c.
Proof.
  assert (K : (forall e, exists c, read_of e c) /\ (forall s, exists c, read_of (stmt_expr s) c)).
  { assert (Other : forall e, extract_comparisons e = Ignored -> conjuncts e = [e] -> disjuncts e = [e] -> exists c, read_of e c).
    { intros e E Hc Hd. exists Ignored. unfold read_of, leaf. rewrite Hc, Hd. cbn [flat_map]. rewrite Hc. cbn [flat_map]. rewrite E. repeat split. }
    apply tree_ind; try (intros; apply Other; reflexivity); try (intros; cbn [stmt_expr]; assumption).
    - intros c src sp F. destruct c as [|s [|s' c]]; try (apply Other; try reflexivity; destruct s as [| |[] ?]; reflexivity).
      inversion F as [|? ? Hs _]; subst. destruct s as [n e ssp|n e ssp|e ssp]; try (apply Other; reflexivity).
      destruct e; try (apply Other; reflexivity). exact Hs.
    - intros c a b sp (ca & Fa & Ha & Ia & Pa) (cb & Fb & Hb & Ib & Pb).
      assert (Leaf : c <> BAnd -> c <> BOr -> exists r, read_of (EBinary c a b sp) r).
      { intros N1 N2. assert (E : extract_comparisons (EBinary c a b sp) = Ignored \/ exists k v n q, extract_comparisons (EBinary c a b sp) = Compare k v n q).
        { cbn [extract_comparisons]. destruct c; try congruence; try (left; reflexivity); cbn [kind_of]; destruct (extract_ident_number a b) as [(v, n)|]; eauto 8. }
        assert (Ec : conjuncts (EBinary c a b sp) = [EBinary c a b sp]) by (destruct c; try congruence; reflexivity).
        assert (Ed : disjuncts (EBinary c a b sp) = [EBinary c a b sp]) by (destruct c; try congruence; reflexivity).
        destruct E as [E|(k & v & n & q & E)]; [now apply Other|]. exists (Compare k v n q). unfold read_of, leaf. rewrite Ec, Ed. cbn [flat_map]. rewrite Ec. cbn [flat_map]. rewrite E. repeat split. }
      destruct c; try (apply Leaf; discriminate).
      + exists (NonCompareGroup [ca; cb]). split; [cbn [extract_comparisons flatten]; rewrite Fa, Fb; reflexivity|]. split; [eexists; reflexivity|]. split; [reflexivity|].
        cbn [find_issues flat_map disjuncts]. rewrite app_nil_r, flat_map_app. now rewrite Pa, Pb.
      + exists (CompareGroup (item ca ++ item cb)). split.
        { cbn [extract_comparisons flatten]. destruct (extract_comparisons a) as [k v n q|la|la|].
          - subst ca. destruct (extract_comparisons b) as [k' v' n' q'|lb|lb|].
            + subst cb. reflexivity.
            + destruct Hb as (l & ->). rewrite Fb. cbn [option_map item app]. now rewrite app_nil_r.
            + destruct Hb as (l & ->). rewrite Fb. reflexivity.
            + subst cb. reflexivity.
          - destruct Ha as (l1 & ->). rewrite Fa. destruct (extract_comparisons b) as [k' v' n' q'|lb|lb|].
            + subst cb. reflexivity.
            + destruct Hb as (l & ->). rewrite Fb. cbn [option_map item app]. now rewrite app_nil_r.
            + destruct Hb as (l & ->). rewrite Fb. reflexivity.
            + subst cb. reflexivity.
          - destruct Ha as (l1 & ->). rewrite Fa. destruct (extract_comparisons b) as [k' v' n' q'|lb|lb|].
            + subst cb. reflexivity.
            + destruct Hb as (l & ->). rewrite Fb. cbn [option_map item app]. now rewrite app_nil_r.
            + destruct Hb as (l & ->). rewrite Fb. reflexivity.
            + subst cb. reflexivity.
          - subst ca. destruct (extract_comparisons b) as [k' v' n' q'|lb|lb|].
            + subst cb. reflexivity.
            + destruct Hb as (l & ->). rewrite Fb. cbn [option_map item app]. now rewrite app_nil_r.
            + destruct Hb as (l & ->). rewrite Fb. reflexivity.
            + subst cb. reflexivity. }
        split; [eexists; reflexivity|]. assert (G : filter is_compare (item ca ++ item cb) = flat_map leaf (conjuncts (EBinary BAnd a b sp))).
        { cbn [conjuncts]. rewrite filter_app, flat_map_app. now rewrite Ia, Ib. }
        split; [exact G|]. cbn [find_issues]. rewrite pairs_filter, G. cbn [disjuncts flat_map]. now rewrite app_nil_r. }
  exact (proj1 K).
Qed.
Lemma issues_of : forall cond usp, s21 (EUnary (UNamed (bs "if")) cond usp) = Some (flat_map (fun g => pairs (flat_map leaf (conjuncts g))) (disjuncts cond)).
Proof.
  intros cond usp. destruct (reading cond) as (c & F & _ & _ & P). unfold s21. replace (eqb_bytes (bs "if") (bs "if")) with true by reflexivity. rewrite F. cbn [option_map]. now rewrite P.
Qed.

(** ** Pairs *)
Lemma pairs_spec : forall es i, In i (pairs (flat_map leaf es)) <-> exists l1 a l2 b l3 x y, es = l1 ++ a :: l2 ++ b :: l3 /\ leaf a = [x] /\ leaf b = [y] /\ In i (pair_issue x y).
Proof.
  assert (L : forall e, leaf e = [] \/ exists x, leaf e = [x]) by (intros e; unfold leaf; destruct (extract_comparisons e); eauto).
  assert (F : forall es y, In y (flat_map leaf es) <-> exists l1 b l2, es = l1 ++ b :: l2 /\ leaf b = [y]).
  { intros es y. rewrite in_flat_map. split.
    - intros (b & Hb & H). apply in_split in Hb as (l1 & l2 & ->). destruct (L b) as [E|(x & E)]; rewrite E in H; [destruct H|]. destruct H as [->|[]]. eauto.
    - intros (l1 & b & l2 & -> & E). exists b. split; [apply in_app_iff; right; now left|]. rewrite E. now left. }
  intros es i. induction es as [|e es IH].
  - split; [intros []|]. intros (l1 & a & l2 & b & l3 & x & y & H & _). destruct l1; discriminate.
  - cbn [flat_map]. assert (S : In i (pairs (leaf e ++ flat_map leaf es)) <-> (exists x y, leaf e = [x] /\ In y (flat_map leaf es) /\ In i (pair_issue x y)) \/ In i (pairs (flat_map leaf es))).
    { destruct (L e) as [->|(x & ->)]; cbn [app pairs].
      - split; [auto|]. intros [(x & y & H & _)|H]; [discriminate|exact H].
      - rewrite in_app_iff, in_flat_map. split.
        + intros [(y & Hy & H)|H]; [left; eauto|now right].
        + intros [(x' & y & H & Hy & Hi)|H]; [left; injection H as ->; eauto|now right]. }
    rewrite S, IH. clear S IH. split.
    + intros [(x & y & Hx & Hy & Hi)|(l1 & a & l2 & b & l3 & x & y & -> & H)].
      * apply F in Hy as (l1 & b & l2 & -> & Hb). exists [], e, l1, b, l2, x, y. auto.
      * exists (e :: l1), a, l2, b, l3, x, y. auto.
    + intros ([|e' l1] & a & l2 & b & l3 & x & y & H & Ha & Hb & Hi).
      * injection H as -> ->. left. exists x, y. split; [exact Ha|]. split; [apply F; eauto|exact Hi].
      * injection H as -> ->. right. exists l1, a, l2, b, l3, x, y. auto.
Qed.
(** A comparison that is looked at. *)
Lemma leaf_shape : forall e x, leaf e = [x] -> conjuncts e = [e] -> exists c a b q k v n s1 s2, e = EBinary c a b q /\ kind_of c = Some k /\ x = Compare k v n (full_span e) /\
  (a = EVar v s1 /\ b = ENumber n s2 \/ a = ENumber n s1 /\ b = EVar v s2).
Proof.
  intros e x H Hc. unfold leaf in H. destruct e as [c src sp| | | | | | | |c a b q|]; try discriminate.
  - cbn [extract_comparisons] in H. destruct c as [|[| |[] ?] [|? ?]]; try discriminate.
    exfalso. cbn [conjuncts] in Hc. destruct (extract_comparisons _) as [k v n q| | |] eqn:E in H; try discriminate. destruct c; cbn [extract_comparisons kind_of] in E; try discriminate; discriminate Hc.
  - cbn [extract_comparisons] in H. assert (G : forall k, kind_of c = Some k ->
      match match extract_ident_number a b with Some (v, n) => Compare k v n (full_span (EBinary c a b q)) | None => Ignored end with
      | Compare k' v n sp => [Compare k' v n sp] | _ => [] end = [x] ->
      exists c' a' b' q' k' v n s1 s2, EBinary c a b q = EBinary c' a' b' q' /\ kind_of c' = Some k' /\ x = Compare k' v n (full_span (EBinary c a b q)) /\ (a' = EVar v s1 /\ b' = ENumber n s2 \/ a' = ENumber n s1 /\ b' = EVar v s2)).
    { intros k Hk Hx. unfold extract_ident_number in Hx. destruct a, b; try discriminate; injection Hx as <-; repeat eexists; eauto. }
    destruct c; cbn [kind_of] in H; try discriminate; (apply (G _ eq_refl) in H; exact H).
Qed.

(** ** Conditions *)
Lemma shape_parts : forall e, (exists a b sp, e = EBinary BAnd a b sp) \/ (exists a b sp, e = EBinary BOr a b sp) \/
  (exists c a b sp s1 src s2, e = ECode [SExpr (EBinary c a b sp) s1] src s2) \/ (conjuncts e = [e] /\ disjuncts e = [e]).
Proof.
  intros e. destruct e as [c src sp| | | | | | | |c a b q|]; try (right; right; right; split; reflexivity).
  - destruct c as [|[| |[] ?] [|? ?]]; try (right; right; right; split; reflexivity). right; right; left. repeat eexists.
  - destruct c; try (right; right; right; split; reflexivity); eauto 8.
Qed.
Lemma conjuncts_hold : forall st e, holds st e <-> Forall (holds st) (conjuncts e).
Proof.
  intros st. assert (K : (forall e, holds st e <-> Forall (holds st) (conjuncts e)) /\ (forall s, holds st (stmt_expr s) <-> Forall (holds st) (conjuncts (stmt_expr s)))).
  { assert (One : forall e, conjuncts e = [e] -> (holds st e <-> Forall (holds st) (conjuncts e))).
    { intros e ->. split; [intros H; constructor; [exact H|constructor]|intros H; now inversion H]. }
    apply tree_ind; try (intros; apply One; reflexivity); try (intros; cbn [stmt_expr]; assumption).
    - intros c src sp F. destruct (shape_parts (ECode c src sp)) as [(?&?&?&?)|[(?&?&?&?)|[(?&?&?&?&?&?&?&E)|(E & _)]]]; try discriminate; [|now apply One].
      injection E as -> -> ->. inversion F as [|? ? Hs _]; subst. exact Hs.
    - intros c a b sp Ha Hb. destruct c; try (apply One; reflexivity). cbn [holds conjuncts]. rewrite Forall_app. tauto. }
  exact (proj1 K).
Qed.
Lemma disjuncts_hold : forall st e, holds st e <-> Exists (holds st) (disjuncts e).
Proof.
  intros st. assert (K : (forall e, holds st e <-> Exists (holds st) (disjuncts e)) /\ (forall s, holds st (stmt_expr s) <-> Exists (holds st) (disjuncts (stmt_expr s)))).
  { assert (One : forall e, disjuncts e = [e] -> (holds st e <-> Exists (holds st) (disjuncts e))).
    { intros e ->. split; [intros H; now constructor|intros H; inversion H as [|? ? X]; [assumption|inversion X]]. }
    apply tree_ind; try (intros; apply One; reflexivity); try (intros; cbn [stmt_expr]; assumption).
    - intros c src sp F. destruct (shape_parts (ECode c src sp)) as [(?&?&?&?)|[(?&?&?&?)|[(?&?&?&?&?&?&?&E)|(_ & E)]]]; try discriminate; [|now apply One].
      injection E as -> -> ->. inversion F as [|? ? Hs _]; subst. exact Hs.
    - intros c a b sp Ha Hb. destruct c; try (apply One; reflexivity). cbn [holds disjuncts]. rewrite Exists_app. tauto. }
  exact (proj1 K).
Qed.
Lemma parts_within : forall e, (forall g, In g (conjuncts e) -> within g e /\ conjuncts g = [g]) /\ (forall g, In g (disjuncts e) -> within g e).
Proof.
  set (P := fun e => (forall g, In g (conjuncts e) -> within g e /\ conjuncts g = [g]) /\ (forall g, In g (disjuncts e) -> within g e)).
  assert (K : (forall e, P e) /\ (forall s, P (stmt_expr s))).
  { assert (One : forall e, conjuncts e = [e] -> disjuncts e = [e] -> P e).
    { intros e E1 E2. unfold P. rewrite E2. split.
      - intros g Hg. rewrite E1 in Hg. destruct Hg as [<-|[]]. split; [apply within_here|exact E1].
      - intros g [<-|[]]. apply within_here. }
    apply tree_ind; try (intros; apply One; reflexivity); try (intros; cbn [stmt_expr]; assumption).
    - intros c src sp F. destruct (shape_parts (ECode c src sp)) as [(?&?&?&?)|[(?&?&?&?)|[(c' & a & b & s0 & s1 & s2 & s3 & E)|(E & E')]]]; try discriminate; [|now apply One].
      injection E as -> -> ->. inversion F as [|? ? Hs _]; subst. destruct Hs as (H1 & H2). split.
      + intros g Hg. apply H1 in Hg as (Hw & Hg). split; [|exact Hg]. eapply within_code; [now left|exact Hw].
      + intros g Hg. apply H2 in Hg. eapply within_code; [now left|exact Hg].
    - intros c a b sp (A1 & A2) (B1 & B2).
      assert (Left : forall g, within g a -> within g (EBinary c a b sp)) by (intros; now apply within_left). assert (Right : forall g, within g b -> within g (EBinary c a b sp)) by (intros; now apply within_right).
      destruct c; try (apply One; reflexivity); unfold P; cbn [conjuncts disjuncts]; split; intros g Hg;
        try (destruct Hg as [<-|[]]; try split; try apply within_here; reflexivity); apply in_app_iff in Hg as [Hg|Hg].
      + auto.
      + auto.
      + apply A1 in Hg as (Hw & Hg). auto.
      + apply B1 in Hg as (Hw & Hg). auto. }
  exact (proj1 K).
Qed.

(** ** Numbers *)
Lemma f32_order : forall a x b y, f32_bits a x -> f32_bits b y -> a < b -> x < y.
Proof.
  intros a x b y Ha Hb L. destruct Ha as [(Ha & ->)|(e & m & He & Hm & -> & ->)], Hb as [(Hb & ->)|(e' & m' & He' & Hm' & -> & ->)].
  - exact L.
  - assert (P : 1 <= 2 ^ (e' - 1)) by (pose proof (N.pow_nonzero 2 (e' - 1) ltac:(lia)); lia). revert P. generalize (2 ^ (e' - 1)) as w. change (2 ^ 23) with 8388608 in *. intros w P.
    assert (8388608 * 1 <= (8388608 + m') * w) by (apply N.mul_le_mono; lia). lia.
  - change (2 ^ 23) with 8388608 in *. lia.
  - change (2 ^ 23) with 8388608 in *. assert (E : e < e' \/ e = e' /\ m < m') by lia. destruct E as [E|(-> & E)].
    + assert (P : 2 ^ (e' - 1) = 2 ^ (e - 1) * (2 * 2 ^ (e' - e - 1))).
      { replace (2 * 2 ^ (e' - e - 1)) with (2 ^ (e' - e)) by (rewrite <- N.pow_succ_r by lia; f_equal; lia). rewrite <- N.pow_add_r. f_equal. lia. }
      rewrite P. assert (Q : 1 <= 2 ^ (e' - e - 1)) by (pose proof (N.pow_nonzero 2 (e' - e - 1) ltac:(lia)); lia).
      assert (R : 1 <= 2 ^ (e - 1)) by (pose proof (N.pow_nonzero 2 (e - 1) ltac:(lia)); lia). revert Q R. generalize (2 ^ (e' - e - 1)) as u. generalize (2 ^ (e - 1)) as w. intros w u Q R. clear P.
      replace ((8388608 + m') * (w * (2 * u))) with (((8388608 + m') * (2 * u)) * w) by ring. apply N.mul_lt_mono_pos_r; [lia|].
      assert ((8388608 + m') * (2 * 1) <= (8388608 + m') * (2 * u)) by (apply N.mul_le_mono; lia). lia.
    + apply N.mul_lt_mono_pos_r; [|lia]. pose proof (N.pow_nonzero 2 (e' - 1) ltac:(lia)). lia.
Qed.
Lemma f32_small : forall a x, f32_bits a x -> a < 2 ^ 31.
Proof. intros a x [(H & _)|(e & m & He & Hm & -> & _)]; change (2 ^ 31) with 2147483648; change (2 ^ 23) with 8388608 in *; lia. Qed.
Lemma key_order : forall a x b y, f32_bits a x -> f32_bits b y -> ((key a <? key b) = true <-> x < y) /\ ((key a =? key b) = true <-> x = y).
Proof.
  intros a x b y Ha Hb. unfold key. rewrite (proj2 (N.ltb_lt _ _) (f32_small _ _ Ha)), (proj2 (N.ltb_lt _ _) (f32_small _ _ Hb)).
  assert (U : a = b -> x = y).
  { intros ->. destruct (N.lt_trichotomy x y) as [H|[H|H]]; auto; exfalso.
    - destruct Ha as [(Ha & ->)|(e & m & He & Hm & Ea & ->)], Hb as [(Hb & ->)|(e' & m' & He' & Hm' & Eb & ->)]; change (2 ^ 23) with 8388608 in *; try lia.
      assert (e = e') by lia. assert (m = m') by lia. subst. lia.
    - destruct Ha as [(Ha & ->)|(e & m & He & Hm & Ea & ->)], Hb as [(Hb & ->)|(e' & m' & He' & Hm' & Eb & ->)]; change (2 ^ 23) with 8388608 in *; try lia.
      assert (e = e') by lia. assert (m = m') by lia. subst. lia. }
  assert (L := f32_order _ _ _ _ Ha Hb). assert (L' := f32_order _ _ _ _ Hb Ha). rewrite N.ltb_lt, N.eqb_eq.
  destruct (N.lt_trichotomy a b) as [H|[H|H]]; [specialize (L H)|specialize (U H)|specialize (L' H)]; split; lia.
Qed.
