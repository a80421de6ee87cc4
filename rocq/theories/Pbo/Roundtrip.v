From Verif Require Import Base.Tactics Base.Bytes Base.Sort Io.Model Io.Spec Io.Proofs Pbo.Model Pbo.Spec Pbo.Proofs.
Local Open Scope N_scope.

(** ** Strings: separators and trimming keep validity *)
Lemma norm_idem n : norm (norm n) = norm n.
Proof.
  unfold norm. rewrite map_map. apply map_ext. intro b. destruct (b =? 47) eqn:E; [reflexivity|]. now rewrite E.
Qed.

Lemma norm_utf8_go k lo hi l : 93 <= lo -> utf8_go k lo hi (norm l) = utf8_go k lo hi l.
Proof.
  revert k lo hi; induction l as [|b l IH]; intros k lo hi Hlo; cbn [norm map utf8_go]; [auto|].
  fold (norm l). destruct (b =? 47) eqn:E.
  - apply N.eqb_eq in E; subst b. destruct k.
    + cbn. apply IH; lia.
    + destruct (lo <=? 92) eqn:E1; [apply N.leb_le in E1; lia|].
      destruct (lo <=? 47) eqn:E2; [apply N.leb_le in E2; lia|]. reflexivity.
  - destruct k.
    + repeat (destruct (_ : bool) at 1; [first [reflexivity | apply IH; lia]|]).
      repeat match goal with |- context [if ?c then _ else _] => destruct c end; try reflexivity; apply IH; lia.
    + destruct ((lo <=? b) && (b <=? hi)); [apply IH; lia|reflexivity].
Qed.

Lemma norm_good n : good_str n -> good_str (norm n).
Proof.
  intros [Hu Hn]. split.
  - unfold utf8_valid in *. rewrite norm_utf8_go by lia. auto.
  - unfold no_nul, norm in *. rewrite in_map_iff. intros (b & Hb & Hin).
    destruct (b =? 47); [discriminate|]. subst b. auto.
Qed.

Lemma norm_nonempty n : n <> [] -> norm n <> [].
Proof. destruct n; cbn; congruence. Qed.

Lemma utf8_snoc_ascii k lo hi l b : b < 128 -> 128 <= lo ->
  utf8_go k lo hi (l ++ [b]) = true -> utf8_go k lo hi l = true.
Proof.
  intro Hb. revert k lo hi; induction l as [|x l IH]; intros k lo hi Hlo H; cbn [app utf8_go] in *.
  - destruct k; [auto|]. destruct (lo <=? b) eqn:E; [apply N.leb_le in E; lia|]. discriminate.
  - destruct k.
    + repeat match goal with
      | |- context [if ?c then _ else _] => destruct c
      end; try discriminate; eapply IH; eauto; lia.
    + destruct ((lo <=? x) && (x <=? hi)); [|discriminate]. eapply IH; eauto; lia.
Qed.

Lemma trim_start_suffix c l : exists i, l = repeat c i ++ trim_start c l.
Proof.
  induction l as [|b l [i IH]]; cbn; [exists 0%nat; auto|].
  destruct (b =? c) eqn:E; [|exists 0%nat; auto].
  apply N.eqb_eq in E; subst. exists (S i). cbn. now rewrite <- IH.
Qed.

Lemma trim_start_head c l r : trim_start c l <> c :: r.
Proof.
  induction l as [|b l IH]; cbn; [congruence|]. destruct (b =? c) eqn:E; [auto|].
  intro H. injection H as -> _. rewrite N.eqb_refl in E. discriminate.
Qed.

Lemma rev_repeat {A} (c : A) i : rev (repeat c i) = repeat c i.
Proof.
  induction i; cbn; [auto|]. rewrite IHi. symmetry. clear.
  induction i; cbn; [auto|]. f_equal. auto.
Qed.

Lemma trim_matches_stripped s : stripped s (trim_matches 92 s).
Proof.
  unfold trim_matches. destruct (trim_start_suffix 92 s) as [i Hi].
  destruct (trim_start_suffix 92 (rev (trim_start 92 s))) as [j Hj].
  exists i, j. split; [|split].
  - rewrite Hi at 1. f_equal. rewrite <- (rev_involutive (trim_start 92 s)) at 1.
    rewrite Hj at 1. rewrite rev_app_distr, rev_repeat. reflexivity.
  - intros r Hr.
    assert (H : trim_start 92 s = rev (trim_start 92 (rev (trim_start 92 s))) ++ repeat 92 j).
    { rewrite <- (rev_involutive (trim_start 92 s)) at 1. rewrite Hj at 1. now rewrite rev_app_distr, rev_repeat. }
    rewrite Hr in H. apply (trim_start_head 92 s (r ++ repeat 92 j)). exact H.
  - intros r Hr. apply (f_equal (@rev N)) in Hr. rewrite rev_involutive, rev_app_distr in Hr. cbn in Hr.
    eapply trim_start_head; eauto.
Qed.

Lemma stripped_unique s v v' : stripped s v -> stripped s v' -> v = v'.
Proof.
  intros (i & j & H1 & Hh & Ht) (i' & j' & H2 & Hh' & Ht').
  subst s. revert i' H2; induction i as [|i IH]; intros i' H2.
  - destruct i' as [|i'].
    + cbn in H2. clear Hh Hh'.
      assert (E : rev (v ++ repeat 92 j) = rev (v' ++ repeat 92 j')) by now f_equal.
      rewrite !rev_app_distr, !rev_repeat in E.
      revert j' H2 E; induction j as [|j IHj]; intros j' H2 E.
      * destruct j'; cbn in E; [now apply (f_equal (@rev N)) in E; rewrite !rev_involutive in E|].
        exfalso. apply (f_equal (@rev N)) in E. rewrite rev_involutive in E. cbn in E.
        apply (Ht _ E).
      * destruct j'; cbn in E.
        -- exfalso. apply (f_equal (@rev N)) in E. rewrite rev_involutive in E. cbn in E. apply (Ht' _ (eq_sym E)).
        -- apply (IHj j'); [|now injection E].
           injection E as E. apply (f_equal (@rev N)) in E.
           now rewrite !rev_app_distr, !rev_involutive, !rev_repeat in E.
    + cbn in H2. destruct v as [|x v].
      * cbn in H2. destruct j; cbn in H2; [discriminate|]. injection H2 as H2.
        (* v = []: the text is all backslashes *)
        assert (Hall : forall n a w b, repeat 92 n = repeat 92 a ++ w ++ repeat 92 b -> Forall (eq 92) w).
        { intros n a w b E. assert (F : Forall (eq 92) (repeat 92 a ++ w ++ repeat 92 b)).
          { rewrite <- E. apply Forall_forall. intros y Hy. apply repeat_spec in Hy. auto. }
          apply Forall_app in F as [_ F]. now apply Forall_app in F as [F _]. }
        specialize (Hall _ _ _ _ H2). destruct v' as [|y v']; [auto|].
        inversion Hall; subst. exfalso. eapply Hh'; eauto.
      * cbn in H2. injection H2 as E _. exfalso. subst x. eapply Hh; reflexivity.
  - destruct i' as [|i'].
    + cbn in H2. destruct v' as [|x v'].
      * cbn in H2. destruct j'; cbn in H2; [discriminate|]. injection H2 as H2.
        assert (Hall : forall n a w b, repeat 92 n = repeat 92 a ++ w ++ repeat 92 b -> Forall (eq 92) w).
        { intros n a w b E. assert (F : Forall (eq 92) (repeat 92 a ++ w ++ repeat 92 b)).
          { rewrite <- E. apply Forall_forall. intros y Hy. apply repeat_spec in Hy. auto. }
          apply Forall_app in F as [_ F]. now apply Forall_app in F as [F _]. }
        symmetry in H2. specialize (Hall _ _ _ _ H2). destruct v as [|y v]; [auto|].
        inversion Hall; subst. exfalso. eapply Hh; eauto.
      * cbn in H2. injection H2 as E _. exfalso. subst x. eapply Hh'; reflexivity.
    + cbn in H2. injection H2 as H2. eapply IH; eauto.
Qed.

Lemma utf8_repeat_front i l : utf8_valid (repeat 92 i ++ l) = utf8_valid l.
Proof. unfold utf8_valid. induction i; cbn; auto. Qed.

Lemma utf8_repeat_back j l : utf8_valid (l ++ repeat 92 j) = true -> utf8_valid l = true.
Proof.
  revert l; induction j as [|j IH]; intros l H; cbn in H; [now rewrite app_nil_r in H|].
  replace (l ++ 92 :: repeat 92 j) with ((l ++ [92]) ++ repeat 92 j) in H by (rewrite <- app_assoc; reflexivity).
  apply IH in H. unfold utf8_valid in *. eapply utf8_snoc_ascii; [| |exact H]; lia.
Qed.

Lemma trim_good v : good_str v -> good_str (trim_matches 92 v).
Proof.
  intros [Hu Hn]. destruct (trim_matches_stripped v) as (i & j & Hv & _ & _). rewrite Hv in Hu, Hn. split.
  - rewrite utf8_repeat_front in Hu. eapply utf8_repeat_back; eauto.
  - intro Hin. apply Hn. apply in_or_app; right. apply in_or_app; auto.
Qed.

(** ** Invariant of plain histories *)
Definition file_entry_ok (e : bytes * (bytes * header)) : Prop :=
  let '(k, (c, h)) := e in
  h = header_for_file k (blen c) /\ blen c < 2 ^ 32 /\ good_str k /\ k <> [] /\ norm k = k.

Record plain_inv (w : wpbo) : Prop := {
  pi_fn : NoDup (map fst (w_files w));
  pi_f : Forall file_entry_ok (w_files w);
  pi_pn : NoDup (map fst (w_props w));
  pi_p : Forall kv_good (w_props w)
}.

Lemma plain_step w o : plain_inv w -> plain_op o -> plain_inv (step w o).
Proof.
  intros [Hfn Hf Hpn Hp] Ho. destruct o as [n c|h c|k v|k]; cbn in *.
  - unfold add_file. destruct (4294967295 <? blen c) eqn:E; [constructor; auto|].
    apply N.ltb_ge in E. constructor; cbn; auto.
    + now apply im_insert_nodup.
    + apply im_insert_forall; [auto|]. intros k' ->. cbn. destruct Ho as [Hg Hne].
      split; [auto|]. split; [cbn; lia|]. split; [now apply norm_good|].
      split; [now apply norm_nonempty|apply norm_idem].
  - destruct Ho.
  - destruct Ho as (Hk & Hk0 & Hv). constructor; cbn; auto.
    + now apply im_insert_nodup.
    + apply im_insert_forall; [auto|]. intros k' ->. split; [auto|]. split; [auto|]. cbn. now apply trim_good.
  - constructor; cbn; auto.
    + now apply im_swap_remove_nodup.
    + rewrite Forall_forall in *. intros x Hx. apply Hp. eapply im_swap_remove_incl; eauto.
Qed.

Lemma plain_run ops : Forall plain_op ops -> plain_inv (run ops).
Proof.
  unfold run. assert (H0 : plain_inv wpbo_new) by (constructor; cbn; constructor).
  revert H0. generalize wpbo_new. induction ops as [|o ops IH]; intros w Hw Ho; cbn; [auto|].
  inversion Ho; subst. apply IH; auto. now apply plain_step.
Qed.

(** ** Reading files back *)
Section Files.
  Context (lower : bytes -> bytes).

  (** The position of the first header matching [target], and its body. *)
  Definition first_match (target : bytes) (hs : list header) (bodies : list bytes) : option bytes :=
    match find (fun p => eqb_bytes (lname lower (fst p)) target) (combine hs bodies) with
    | Some (_, c) => Some c
    | None => None
    end.

  Lemma file_go_spec target hs bodies rest :
    map blen bodies = map h_size hs ->
    file_go lower target hs (concat bodies ++ rest) = first_match target hs bodies.
  Proof.
    revert bodies; induction hs as [|h hs IH]; intros [|c bodies] H; try discriminate; [reflexivity|].
    cbn in H. injection H as Hc H. unfold first_match. cbn [file_go concat combine find fst].
    destruct (eqb_bytes (lname lower h) target).
    - rewrite <- Hc, <- app_assoc, takeN_app_exact. reflexivity.
    - rewrite <- Hc, <- app_assoc, skipN_app_exact. rewrite IH by auto. reflexivity.
  Qed.

  Lemma offset_go_spec target hs off i h :
    nth_error hs i = Some h -> lname lower h = target ->
    (forall j h', (j < i)%nat -> nth_error hs j = Some h' -> lname lower h' <> target) ->
    offset_go lower target hs off = Some (off + total_size (firstn i hs)).
  Proof.
    revert i off; induction hs as [|h0 hs IH]; intros i off Hi Ht Hj; [destruct i; discriminate|].
    unfold total_size in *.
    destruct i as [|i]; cbn [nth_error offset_go firstn fold_right] in *.
    - injection Hi as ->. rewrite Ht, eqb_bytes_refl. f_equal. lia.
    - destruct (eqb_bytes (lname lower h0) target) eqn:E.
      + apply eqb_bytes_spec in E. exfalso. eapply (Hj 0%nat h0); eauto. lia.
      + erewrite IH; eauto.
        * f_equal. lia.
        * intros j h' Hlt. apply (Hj (S j)). lia.
  Qed.

  Lemma first_match_unique target hs bodies h c :
    length hs = length bodies ->
    NoDup (map (lname lower) hs) -> In (h, c) (combine hs bodies) -> lname lower h = target ->
    first_match target hs bodies = Some c.
  Proof.
    unfold first_match. revert bodies; induction hs as [|h0 hs IH]; intros [|c0 bodies] Hl HN Hin Ht;
      cbn in *; try contradiction; try discriminate.
    inversion HN as [|? ? Hn HN']; subst.
    destruct Hin as [E|Hin].
    - injection E as -> ->. now rewrite eqb_bytes_refl.
    - destruct (eqb_bytes (lname lower h0) (lname lower h)) eqn:E.
      + apply eqb_bytes_spec in E. exfalso. apply Hn. rewrite E. apply in_map.
        eapply in_combine_l; eauto.
      + apply (IH bodies); auto.
  Qed.

  Lemma first_match_nth target hs bodies i h c :
    nth_error hs i = Some h -> nth_error bodies i = Some c -> lname lower h = target ->
    (forall j h', (j < i)%nat -> nth_error hs j = Some h' -> lname lower h' <> target) ->
    first_match target hs bodies = Some c.
  Proof.
    unfold first_match. revert i bodies; induction hs as [|h0 hs IH]; intros i bodies Hh Hc Ht Hj;
      [destruct i; discriminate|].
    destruct bodies as [|c0 bodies]; [destruct i; discriminate|]. cbn [combine find fst].
    destruct i as [|i]; cbn in Hh, Hc.
    - injection Hh as ->. injection Hc as ->. rewrite Ht, eqb_bytes_refl. reflexivity.
    - destruct (eqb_bytes (lname lower h0) target) eqn:E.
      + apply eqb_bytes_spec in E. exfalso. eapply (Hj 0%nat h0); eauto. lia.
      + eapply IH; eauto. intros j h' Hlt. apply (Hj (S j)). lia.
  Qed.

  Lemma first_match_none target hs bodies :
    (forall h, In h hs -> lname lower h <> target) -> first_match target hs bodies = None.
  Proof.
    unfold first_match. revert bodies; induction hs as [|h0 hs IH]; intros [|c0 bodies] H; cbn; auto.
    destruct (eqb_bytes (lname lower h0) target) eqn:E.
    - apply eqb_bytes_spec in E. exfalso. eapply H; [left; auto|auto].
    - apply IH. intros h Hin. apply H. right; auto.
  Qed.
End Files.

(** ** Writing then reading *)
Section RT.
  Context (lower sha : bytes -> bytes) (Hsha : forall x, length (sha x) = 20%nat).

  (** The content the writer finds for a header. *)
  Definition body_of (w : wpbo) (h : header) : bytes :=
    match w_file (h_name h) w with Some c => c | None => [] end.

  Definition sorted_headers (iter : list (bytes * (bytes * header))) : list header :=
    files_sorted lower (map (fun e => snd (snd e)) iter).

  Lemma iter_header w iter h : plain_inv w -> Permutation iter (w_files w) -> In h (sorted_headers iter) ->
    exists k c, In (k, (c, h)) (w_files w) /\ h = header_for_file k (blen c) /\ w_file (h_name h) w = Some c
      /\ blen c < 2 ^ 32 /\ good_str k /\ k <> [] /\ norm k = k.
  Proof.
    intros [Hfn Hf _ _] HP Hin. unfold sorted_headers, files_sorted in Hin.
    apply (Permutation_in _ (sort_by_perm _ _)) in Hin. apply in_map_iff in Hin as ([k [c h']] & Hh & Hin).
    cbn in Hh. subst h'. apply (Permutation_in _ HP) in Hin. exists k, c.
    rewrite Forall_forall in Hf. specialize (Hf _ Hin). cbn in Hf. destruct Hf as (Hh & Hl & Hg & Hk & Hn).
    repeat (split; auto). subst h. cbn. unfold w_file. rewrite Hn.
    now rewrite (im_get_of_in k _ _ Hfn Hin).
  Qed.

  Lemma write_bodies_spec w hs : (forall h, In h hs -> w_file (h_name h) w <> None) ->
    write_bodies w hs = Some (concat (map (body_of w) hs)).
  Proof.
    induction hs as [|h hs IH]; intro H; cbn; [auto|].
    rewrite IH by (intros; apply H; right; auto).
    destruct (w_file (h_name h) w) eqn:E; [unfold body_of at 2; now rewrite E|]. exfalso. apply (H h); [left; reflexivity|exact E].
  Qed.

  Lemma sizes_spec w iter : plain_inv w -> Permutation iter (w_files w) ->
    map blen (map (body_of w) (sorted_headers iter)) = map h_size (sorted_headers iter).
  Proof.
    intros Hw HP. rewrite map_map. apply map_ext_in. intros h Hin.
    destruct (iter_header w iter h Hw HP Hin) as (k & c & _ & Hh & Hf & _).
    unfold body_of. rewrite Hf. rewrite Hh. reflexivity.
  Qed.

  Lemma headers_ok w iter : plain_inv w -> Permutation iter (w_files w) ->
    Forall (fun h => header_ok h /\ h_mime h <> Vers /\ h_name h <> []) (sorted_headers iter).
  Proof.
    intros Hw HP. apply Forall_forall. intros h Hin.
    destruct (iter_header w iter h Hw HP Hin) as (k & c & _ & -> & _ & Hl & Hg & Hk & _).
    cbn. repeat split; try apply Hg; try assumption; try reflexivity; congruence.
  Qed.

  Definition heads_of (properties : bool) (w : wpbo) (hs : list header) : bytes :=
    (if properties then write_header header_property ++ write_props (w_props w) else [])
    ++ flat_map write_header hs ++ write_header header_default.

  Lemma write_spec w iter b : plain_inv w -> Permutation iter (w_files w) ->
    let hs := sorted_headers iter in
    let pre := heads_of b w hs ++ concat (map (body_of w) hs) in
    write lower sha iter b w = Ok (pre ++ [0] ++ sha pre, sha pre).
  Proof.
    intros Hw HP hs pre. unfold write. fold (sorted_headers iter). fold hs.
    rewrite write_bodies_spec.
    - fold (heads_of b w hs). unfold pre. now rewrite <- !app_assoc.
    - intros h Hin. destruct (iter_header w iter h Hw HP Hin) as (k & c & _ & _ & Hf & _). rewrite Hf. discriminate.
  Qed.

  Lemma flat_map_write_len hs : (length hs <= length (flat_map write_header hs))%nat.
  Proof.
    induction hs as [|h hs IH]; cbn; [auto|]. rewrite app_length.
    pose proof (write_header_len h) as H. unfold blen in H. lia.
  Qed.

  Lemma read_written w iter b : plain_inv w -> Permutation iter (w_files w) ->
    let hs := sorted_headers iter in
    let pre := heads_of b w hs ++ concat (map (body_of w) hs) in
    read (pre ++ [0] ++ sha pre) =
      Ok (RPbo (if b then prefix_first (w_props w) else []) (if b then Some header_property else None)
           hs (sha pre) (pre ++ [0] ++ sha pre) (blen (heads_of b w hs))).
  Proof.
    intros Hw HP hs pre. unfold read.
    set (input := pre ++ [0] ++ sha pre).
    assert (Hlen : (S (length hs) < S (length input))%nat).
    { unfold input, pre, heads_of. rewrite !app_length. pose proof (flat_map_write_len hs).
      pose proof (write_header_len header_default) as H1. unfold blen in H1. cbn [length]. lia. }
    assert (Ht : read_table (S (length input)) [] None [] 0 input =
      Ok (if b then prefix_first (w_props w) else [], if b then Some header_property else None, hs,
          blen (heads_of b w hs), concat (map (body_of w) hs) ++ [0] ++ sha pre)).
    { unfold input at 2. unfold pre at 1. rewrite <- app_assoc. unfold heads_of.
      destruct b.
      - pose proof (read_table_full (S (length input)) (w_props w) hs (concat (map (body_of w) hs) ++ [0] ++ sha pre)
          Hlen (pi_pn _ Hw) (pi_p _ Hw) (headers_ok w iter Hw HP)) as HT. cbn zeta in HT.
        rewrite <- !app_assoc in *. exact HT.
      - pose proof (read_table_noprops (S (length input)) hs (concat (map (body_of w) hs) ++ [0] ++ sha pre)
          ltac:(lia) (headers_ok w iter Hw HP)) as HT. cbn zeta in HT.
        cbn [app]. rewrite <- !app_assoc in *. exact HT. }
    rewrite Ht. cbn [bind]. rewrite skip_bodies by (apply sizes_spec; auto).
    change (skipN 1 ([0] ++ sha pre)) with (skipN 1 (0 :: sha pre)).
    assert (Hs : skipN 1 (0 :: sha pre) = sha pre) by (cbn; destruct (sha pre); reflexivity).
    rewrite Hs. rewrite <- (app_nil_r (sha pre)) at 1. rewrite take_exact_app' by auto.
    cbn [of_opt bind]. reflexivity.
  Qed.

  Lemma combine_self {A B} (f : A -> B) l x : In x l -> In (x, f x) (combine l (map f l)).
  Proof. induction l; cbn; [auto|]. intros [->|H]; auto. Qed.

  Lemma r_file_written w iter b r name : plain_inv w -> Permutation iter (w_files w) ->
    let hs := sorted_headers iter in
    let pre := heads_of b w hs ++ concat (map (body_of w) hs) in
    r_headers r = hs -> r_blob r = blen (heads_of b w hs) -> r_input r = pre ++ [0] ++ sha pre ->
    r_file lower name r = first_match lower (lower (norm name)) hs (map (body_of w) hs).
  Proof.
    intros Hw HP hs pre Hh Hb Hi. unfold r_file. rewrite Hh, Hb, Hi. unfold pre. rewrite <- app_assoc.
    rewrite skipN_app_exact. apply file_go_spec. apply sizes_spec; auto.
  Qed.
End RT.
