(** Proofs about Workspace/FilesModel.v. *)
From Verif Require Import Base.Tactics Base.Bytes Base.Text Preproc.Model Preproc.LexModel Preproc.LexSpec Workspace.ProcessedModel Workspace.Spec Workspace.ProcessedProofs Workspace.FilesModel.
Local Open Scope N_scope.
Local Open Scope list_scope.

(** ** [from_content] *)
Lemma from_go_spec s : forall i off l c, i <= off ->
  from_go s i off l c = (l + breaks (take (off - i) s), match breaks (take (off - i) s) with 0 => c + column (take (off - i) s) 0 | _ => 1 + column (take (off - i) s) 0 end).
Proof.
  induction s as [|x s IH]; intros i off l c L; cbn [from_go].
  - unfold take. rewrite firstn_nil. cbn. f_equal; lia.
  - destruct (N.eqb_spec i off) as [->|Ne]; [rewrite N.sub_diag; cbn; f_equal; lia|].
    assert (take (off - i) (x :: s) = x :: take (off - (i + 1)) s) as ->.
    { unfold take. replace (N.to_nat (off - i)) with (S (N.to_nat (off - (i + 1)))) by lia. reflexivity. }
    set (t := take (off - (i + 1)) s) in *.
    assert (forall n, breaks t = 0 -> column t n = n + chars t) as Pl.
    { intros n B. apply column_plain. unfold breaks in B. apply (count_occ_not_In N.eq_dec). lia. }
    assert (forall n m, breaks t <> 0 -> column t n = column t m) as Re.
    { clear. induction t as [|y t IH]; intros n m B; [destruct B; reflexivity|]. cbn [column]. destruct (N.eqb_spec y 10) as [->|Hy]; [reflexivity|]. apply IH.
      intro X. apply B. unfold breaks in *. cbn [count_occ]. destruct (N.eq_dec y 10); [contradiction|]. exact X. }
    cbn [column]. destruct (N.eqb_spec x 10) as [->|Hx].
    + rewrite IH by lia. fold t. assert (breaks (10 :: t) = 1 + breaks t) as ->.
      { unfold breaks. cbn [count_occ]. destruct (N.eq_dec 10 10); [lia|contradiction]. }
      f_equal; [lia|]. destruct (breaks t) eqn:E; cbn [N.add]; reflexivity.
    + rewrite IH by lia. fold t. assert (breaks (x :: t) = breaks t) as ->.
      { unfold breaks. cbn [count_occ]. destruct (N.eq_dec x 10); [contradiction|reflexivity]. }
      f_equal. destruct (breaks t) eqn:E.
      * rewrite !Pl by auto. lia.
      * f_equal. apply Re. congruence.
Qed.
Lemma from_content_spec s off : from_content s off = LC off (1 + breaks (take off s)) (1 + column (take off s) 0).
Proof.
  unfold from_content. rewrite from_go_spec by lia. rewrite N.sub_0_r. destruct (breaks (take off s)); reflexivity.
Qed.

(** ** The line table *)
Definition no_crlf (s : text) : Prop := ~ occurs [13; 10] s.
Lemma no_crlf_tail l r : no_crlf (l ++ 10 :: r) -> no_crlf r /\ strip_cr l = l.
Proof.
  intro H. split.
  - intros (a & b & ->). apply H. exists (l ++ 10 :: a), b. now rewrite <- app_assoc.
  - unfold strip_cr. destruct (rev l) as [|c x] eqn:E; [reflexivity|]. destruct (N.eq_dec c 13) as [->|Ne].
    + exfalso. apply H. exists (rev x), r. rewrite <- (rev_involutive l), E. cbn [rev]. rewrite <- app_assoc. reflexivity.
    + destruct c as [|[[[[]|[]|]|[[]|[]|]|]|[[[]|[]|]|[[]|[]|]|]|]]; try reflexivity; congruence.
Qed.
Lemma starts_shift ls p : starts_go ls p = map (N.add p) (starts_go ls 0).
Proof.
  revert p. induction ls as [|l ls IH]; intro p; [reflexivity|]. cbn [starts_go map]. rewrite N.add_0_r. f_equal. rewrite IH, (IH (0 + byte_len l + 1)), map_map.
  apply map_ext. intro x. lia.
Qed.
Lemma starts_cons l r : ~ In 10 l -> no_crlf (l ++ 10 :: r) -> line_starts (l ++ 10 :: r) = 0 :: map (N.add (byte_len l + 1)) (line_starts r).
Proof.
  intros N C. destruct (no_crlf_tail l r C) as [_ S]. unfold line_starts, lines. rewrite split_on_app by auto. cbn [lines_go].
  pose proof (split_on_nonempty 10 r) as Ne. destruct (split_on 10 r) as [|p ps]; [contradiction|].
  change (starts_go (strip_cr l :: lines_go (p :: ps)) 0 = 0 :: map (N.add (byte_len l + 1)) (starts_go (lines_go (p :: ps)) 0)).
  rewrite S. cbn [starts_go]. f_equal. rewrite starts_shift. reflexivity.
Qed.
Lemma starts_one l : ~ In 10 l -> l <> [] -> line_starts l = [0].
Proof. intros N Ne. unfold line_starts. rewrite lines_single by auto. reflexivity. Qed.

Lemma smaller_map k b l : k <= b -> smaller b (map (N.add k) l) = smaller (b - k) l.
Proof.
  intro L. unfold smaller. f_equal. induction l as [|x l IH]; [reflexivity|]. cbn [map filter].
  replace (k + x <? b) with (x <? b - k) by (destruct (N.ltb_spec x (b - k)), (N.ltb_spec (k + x) b); lia || reflexivity).
  destruct (x <? b - k); cbn [length]; auto.
Qed.
Lemma smaller_none k b l : b <= k -> smaller b (map (N.add k) l) = 0.
Proof.
  intro L. unfold smaller. replace (filter _ _) with (@nil N); [reflexivity|]. symmetry. induction l as [|x l IH]; [reflexivity|]. cbn [map filter].
  replace (k + x <? b) with false by (symmetry; apply N.ltb_ge; lia). exact IH.
Qed.
Lemma member_map k b l : k <= b -> existsb (N.eqb b) (map (N.add k) l) = existsb (N.eqb (b - k)) l.
Proof.
  intro L. induction l as [|x l IH]; [reflexivity|]. cbn [map existsb]. rewrite IH. f_equal.
  destruct (N.eqb_spec b (k + x)), (N.eqb_spec (b - k) x); lia || reflexivity.
Qed.
Lemma member_none k b l : b < k -> existsb (N.eqb b) (map (N.add k) l) = false.
Proof. intro L. induction l as [|x l IH]; [reflexivity|]. cbn [map existsb]. rewrite IH. destruct (N.eqb_spec b (k + x)); lia || reflexivity. Qed.

Lemma index_first l r b : ~ In 10 l -> no_crlf (l ++ 10 :: r) -> b < byte_len l + 1 -> line_index (l ++ 10 :: r) b = Some 0.
Proof.
  intros N C L. unfold line_index. rewrite starts_cons by auto. cbn [existsb]. rewrite member_none by lia. unfold smaller. cbn [filter].
  pose proof (smaller_none (byte_len l + 1) b (line_starts r) ltac:(lia)) as X. unfold smaller in X.
  destruct (N.eqb_spec b 0) as [->|Ne].
  - cbn. destruct (filter (fun x => x <? 0) (map (N.add (byte_len l + 1)) (line_starts r))); [reflexivity|cbn in X; lia].
  - replace (0 <? b) with true by (symmetry; apply N.ltb_lt; lia). cbn [orb length]. replace (length _) with O by lia. reflexivity.
Qed.
Lemma index_next l r b : ~ In 10 l -> no_crlf (l ++ 10 :: r) -> byte_len l + 1 <= b ->
  line_index (l ++ 10 :: r) b = match r with [] => Some 0 | _ => option_map (N.add 1) (line_index r (b - (byte_len l + 1))) end.
Proof.
  intros N C L. unfold line_index. rewrite starts_cons by auto. cbn [existsb]. rewrite member_map by auto.
  replace (b =? 0) with false by (symmetry; apply N.eqb_neq; lia). cbn [orb].
  assert (smaller b (0 :: map (N.add (byte_len l + 1)) (line_starts r)) = 1 + smaller (b - (byte_len l + 1)) (line_starts r)) as ->.
  { rewrite <- smaller_map by auto. unfold smaller. cbn [filter]. replace (0 <? b) with true by (symmetry; apply N.ltb_lt; lia). cbn [length]. lia. }
  destruct r as [|c r]; [reflexivity|]. set (b' := b - (byte_len l + 1)).
  destruct (existsb (N.eqb b') (line_starts (c :: r))) eqn:E; [reflexivity|].
  assert (1 <= smaller b' (line_starts (c :: r))) as P.
  { assert (exists t, line_starts (c :: r) = 0 :: t) as (t & Et).
    { unfold line_starts, lines. pose proof (split_on_nonempty 10 (c :: r)). destruct (split_on 10 (c :: r)) as [|p ps] eqn:Es; [contradiction|].
      cbn [lines_go]. destruct ps; [|cbn; eauto]. destruct p; [|cbn; eauto]. exfalso.
      pose proof (join_split 10 (c :: r)) as J. rewrite Es in J. discriminate. }
    rewrite Et in *. cbn [existsb] in E. apply Bool.orb_false_iff in E. destruct E as [E _]. apply N.eqb_neq in E.
    unfold smaller. cbn [filter]. replace (0 <? b') with true by (symmetry; apply N.ltb_lt; lia). cbn [length]. lia. }
  replace (smaller b' _ =? 0) with false by (symmetry; apply N.eqb_neq; lia).
  replace (1 + smaller b' _ =? 0) with false by (symmetry; apply N.eqb_neq; lia). cbn [option_map]. f_equal. lia.
Qed.
Lemma index_one l b : ~ In 10 l -> l <> [] -> line_index l b = Some 0.
Proof.
  intros N Ne. unfold line_index. rewrite starts_one by auto. unfold smaller. cbn [existsb filter]. destruct (N.eqb_spec b 0) as [->|Hb]; [reflexivity|].
  replace (0 <? b) with true by (symmetry; apply N.ltb_lt; lia). reflexivity.
Qed.

Lemma start_zero s : line_start s 0 = Some 0.
Proof.
  unfold line_start. destruct (line_starts s) as [|x t] eqn:E.
  - cbn. unfold line_starts, lines in E. destruct s as [|c s]; [reflexivity|]. exfalso. pose proof (split_on_nonempty 10 (c :: s)).
    destruct (split_on 10 (c :: s)) as [|p ps] eqn:Es; [contradiction|]. cbn [lines_go] in E. destruct ps; [|discriminate]. destruct p; [|discriminate].
    pose proof (join_split 10 (c :: s)) as J. rewrite Es in J. discriminate.
  - replace (0 <? N.of_nat (length (x :: t))) with true by (symmetry; apply N.ltb_lt; cbn; lia). cbn. unfold line_starts in E. destruct (lines s); [discriminate|]. cbn in E. congruence.
Qed.
Lemma start_next l r n : ~ In 10 l -> no_crlf (l ++ 10 :: r) ->
  line_start (l ++ 10 :: r) (n + 1) = option_map (N.add (byte_len l + 1)) (line_start r n).
Proof.
  intros N C. unfold line_start. rewrite starts_cons by auto. cbn [length]. rewrite map_length.
  set (k := length (line_starts r)).
  replace (n + 1 <? N.of_nat (S k)) with (n <? N.of_nat k) by (destruct (N.ltb_spec n (N.of_nat k)), (N.ltb_spec (n + 1) (N.of_nat (S k))); lia || reflexivity).
  destruct (n <? N.of_nat k).
  - replace (N.to_nat (n + 1)) with (S (N.to_nat n)) by lia. cbn [nth_error]. rewrite nth_error_map. reflexivity.
  - replace (n + 1 =? N.of_nat (S k)) with (n =? N.of_nat k) by (destruct (N.eqb_spec n (N.of_nat k)), (N.eqb_spec (n + 1) (N.of_nat (S k))); lia || reflexivity).
    destruct (n =? N.of_nat k); [|reflexivity]. cbn [option_map]. f_equal. rewrite byte_len_app, byte_len_cons. change (ulen 10) with 1. lia.
Qed.
Definition shift (k : N) (x : N * N) : N * N := (k + fst x, k + snd x).
Lemma range_next l r n : ~ In 10 l -> no_crlf (l ++ 10 :: r) ->
  line_range (l ++ 10 :: r) (n + 1) = option_map (shift (byte_len l + 1)) (line_range r n).
Proof.
  intros N C. unfold line_range. rewrite !start_next by auto. destruct (line_start r n), (line_start r (n + 1)); reflexivity.
Qed.
Lemma range_first l r : ~ In 10 l -> no_crlf (l ++ 10 :: r) -> line_range (l ++ 10 :: r) 0 = Some (0, byte_len l + 1).
Proof.
  intros N C. unfold line_range. rewrite start_zero. rewrite start_next, start_zero by auto. cbn. f_equal. f_equal. lia.
Qed.
Lemma range_one l n : ~ In 10 l -> line_range l n = if (n =? 0) && negb (text_eqb l []) then Some (0, byte_len l) else None.
Proof.
  intros N. destruct l as [|c l].
  - unfold line_range, line_start. cbn. rewrite Bool.andb_false_r. destruct n as [|p]; [reflexivity|]. replace (N.pos p <? 0) with false by reflexivity.
    cbn. reflexivity.
  - unfold line_range, line_start. rewrite starts_one by (auto; discriminate). change (N.of_nat (length [0])) with 1.
    replace (text_eqb (c :: l) []) with false by reflexivity. rewrite Bool.andb_true_r.
    destruct (N.eqb_spec n 0) as [->|Ne]; [reflexivity|]. replace (n <? 1) with false by (symmetry; apply N.ltb_ge; lia). replace (n + 1 <? 1) with false by (symmetry; apply N.ltb_ge; lia).
    replace (n + 1 =? 1) with false by (symmetry; apply N.eqb_neq; lia). destruct (n =? 1); reflexivity.
Qed.

(** The first line of a text. *)
Lemma first_line s : ~ In 10 s \/ exists l r, s = l ++ 10 :: r /\ ~ In 10 l.
Proof.
  induction s as [|c s IH]; [left; intros []|]. destruct (N.eq_dec c 10) as [->|Ne]; [right; exists [], s; split; auto|].
  destruct IH as [H|(l & r & -> & H)]; [left; intros [X|X]; auto|]. right. exists (c :: l), r. split; auto. intros [X|X]; auto.
Qed.
Lemma breaks_first l r : ~ In 10 l -> breaks (l ++ 10 :: r) = 1 + breaks r.
Proof. intro H. rewrite breaks_app', breaks_plain by auto. unfold breaks. cbn [count_occ]. destruct (N.eq_dec 10 10); [lia|contradiction]. Qed.

Lemma is_line_cons s l r n u mid v : s = l ++ 10 :: r -> ~ In 10 l -> is_line r n u mid v -> is_line s (n + 1) (l ++ 10 :: u) mid v.
Proof.
  intros -> N (-> & B & U & M & T). unfold is_line. repeat split; auto.
  - now rewrite <- app_assoc.
  - rewrite breaks_first by auto. lia.
  - right. destruct U as [->|(u' & ->)]; [exists l; reflexivity|]. exists (l ++ 10 :: u'). now rewrite <- app_assoc.
Qed.
Lemma is_line_inv s n u mid v : is_line s n u mid v ->
  (u = [] /\ n = 0 /\ ((exists m, mid = m ++ [10] /\ ~ In 10 m /\ s = m ++ 10 :: v) \/ (v = [] /\ ~ In 10 mid /\ s = mid /\ mid <> []))) \/
  exists l r u', s = l ++ 10 :: r /\ ~ In 10 l /\ u = l ++ 10 :: u' /\ 0 < n /\ is_line r (n - 1) u' mid v.
Proof.
  intros (E & B & U & M & T). destruct (first_line u) as [N|(l & u' & -> & N)].
  - left. destruct U as [->|(u' & ->)]; [|destruct N; apply in_or_app; right; now left]. repeat split; auto.
    destruct T as [(m & -> & Nm)|[-> Nm]]; [left; exists m; repeat split; auto; rewrite E; cbn; now rewrite <- app_assoc|right; repeat split; auto; rewrite E; cbn; now rewrite app_nil_r].
  - right. exists l, (u' ++ mid ++ v), u'. rewrite breaks_first in B by auto. repeat split; auto; try lia.
    + rewrite E, <- app_assoc. reflexivity.
    + destruct U as [U|(x & U)]; [destruct l; discriminate|]. destruct u' as [|c u']; [left; reflexivity|]. right.
      destruct (@exists_last _ (c :: u') ltac:(discriminate)) as (y & z & Ey). rewrite Ey in *. exists y. f_equal.
      assert (l ++ 10 :: y ++ [z] = (l ++ 10 :: y) ++ [z]) as Q by (rewrite <- app_assoc; reflexivity). rewrite Q in U. apply app_inj_tail in U. destruct U as [_ ->]. reflexivity.
Qed.

Lemma line_ok : forall k s n u mid v, (length s < k)%nat -> no_crlf s -> is_line s n u mid v ->
  line_range s n = Some (byte_len u, byte_len u + byte_len mid) /\ forall b, byte_in b u mid -> line_index s b = Some n.
Proof.
  induction k as [|k IH]; intros s n u mid v L C H; [lia|].
  apply is_line_inv in H. destruct H as [(-> & -> & [(m & -> & Nm & ->)|(-> & Nm & -> & Ne)])|(l & r & u' & -> & N & -> & P & H)].
  - unfold byte_in. rewrite byte_len_app. cbn [byte_len fold_right]. change (ulen 10) with 1. split.
    + rewrite range_first by auto. f_equal; f_equal; lia.
    + intros b Hb. apply index_first; auto. lia.
  - split.
    + rewrite range_one by auto. destruct mid; [contradiction|]. reflexivity.
    + intros b _. now apply index_one.
  - destruct (no_crlf_tail _ _ C) as [C' _]. rewrite app_length in L. cbn [length] in L.
    destruct (IH r (n - 1) u' mid v ltac:(lia) C' H) as [R I]. rewrite byte_len_app, byte_len_cons. change (ulen 10) with 1. split.
    + replace n with (n - 1 + 1) at 1 by lia. rewrite range_next, R by auto. cbn [option_map]. unfold shift. cbn [fst snd]. f_equal. f_equal; lia.
    + intros b Hb. unfold byte_in in Hb. rewrite byte_len_app, byte_len_cons in Hb. change (ulen 10) with 1 in Hb. rewrite index_next by (auto; lia).
      assert (r <> []) as Ne. { destruct H as (-> & _ & _ & Hm & _). destruct u', mid; try discriminate. contradiction. }
      destruct r as [|c r]; [contradiction|]. rewrite I by (unfold byte_in; lia). cbn [option_map]. f_equal. lia.
Qed.
Lemma line_exists : forall k s b, (length s < k)%nat -> b < byte_len s -> exists n u mid v, is_line s n u mid v /\ byte_in b u mid.
Proof.
  induction k as [|k IH]; intros s b L Hb; [lia|]. destruct (first_line s) as [N|(l & r & -> & N)].
  - exists 0, [], s, []. split; [|unfold byte_in; cbn; lia]. unfold is_line. rewrite app_nil_r. repeat split; auto. intros ->. cbn in Hb. lia.
  - rewrite byte_len_app, byte_len_cons in Hb. change (ulen 10) with 1 in Hb. destruct (N.lt_ge_cases b (byte_len l + 1)) as [Lt|Ge].
    + exists 0, [], (l ++ [10]), r. split; [|unfold byte_in; rewrite byte_len_app; cbn [byte_len fold_right]; change (ulen 10) with 1; lia].
      unfold is_line. repeat split; auto; [now rewrite <- app_assoc|destruct l; discriminate|]. left. eauto.
    + rewrite app_length in L. cbn [length] in L. destruct (IH r (b - (byte_len l + 1)) ltac:(lia) ltac:(lia)) as (n & u & mid & v & H & B).
      exists (n + 1), (l ++ 10 :: u), mid, v. split; [eapply is_line_cons; eauto|]. unfold byte_in in *. rewrite byte_len_app, byte_len_cons. change (ulen 10) with 1. lia.
Qed.
Lemma line_none : forall k s n, (length s < k)%nat -> no_crlf s -> (line_range s n = None <-> ~ exists u mid v, is_line s n u mid v).
Proof.
  intros k s n L C. split.
  - intros H (u & mid & v & I). destruct (line_ok k s n u mid v L C I) as [R _]. congruence.
  - revert s n L C. induction k as [|k IH]; intros s n L C H; [lia|]. destruct (first_line s) as [N|(l & r & -> & N)].
    + rewrite range_one by auto. destruct (N.eqb_spec n 0) as [->|]; [|reflexivity]. destruct s as [|c s]; [reflexivity|]. exfalso. apply H.
      exists [], (c :: s), []. unfold is_line. rewrite app_nil_r. repeat split; auto. discriminate.
    + destruct (no_crlf_tail _ _ C) as [C' _]. rewrite app_length in L. cbn [length] in L. destruct (N.eq_dec n 0) as [->|Ne].
      * exfalso. apply H. exists [], (l ++ [10]), r. unfold is_line. repeat split; auto; [now rewrite <- app_assoc|destruct l; discriminate|]. left. eauto.
      * replace n with (n - 1 + 1) by lia. rewrite range_next by auto. rewrite IH; auto; [lia|]. intros (u & mid & v & I). apply H.
        exists (l ++ 10 :: u), mid, v. replace n with (n - 1 + 1) by lia. eapply is_line_cons; eauto.
Qed.
(** Indices past the end belong to the last line. *)
Lemma index_past : forall k s n u mid b, (length s < k)%nat -> no_crlf s -> is_line s n u mid [] -> byte_len s <= b -> line_index s b = Some n.
Proof.
  induction k as [|k IH]; intros s n u mid b L C H Hb; [lia|].
  apply is_line_inv in H. destruct H as [(-> & -> & [(m & -> & Nm & ->)|(_ & Nm & -> & Ne)])|(l & r & u' & -> & N & -> & P & H)].
  - rewrite byte_len_app, byte_len_cons in Hb. change (ulen 10) with 1 in Hb. rewrite index_next by (auto; cbn in *; lia). reflexivity.
  - now apply index_one.
  - destruct (no_crlf_tail _ _ C) as [C' _]. rewrite app_length in L. cbn [length] in L.
    rewrite byte_len_app, byte_len_cons in Hb. change (ulen 10) with 1 in Hb. rewrite index_next by (auto; lia).
    assert (r <> []) as Ne. { destruct H as (-> & _ & _ & Hm & _). destruct u', mid; try discriminate. contradiction. }
    destruct r as [|c r]; [contradiction|]. rewrite (IH _ (n - 1) u' mid) by (auto; lia). cbn [option_map]. f_equal. lia.
Qed.
