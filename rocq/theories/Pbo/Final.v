(** The statements of C03-C05 assembled from the round-trip and history lemmas. *)
From Verif Require Import Base.Tactics Base.Bytes Base.Sort Io.Model Io.Spec Io.Proofs
  Pbo.Model Pbo.Spec Pbo.Proofs Pbo.Roundtrip Pbo.History Pbo.Foreign.
Local Open Scope N_scope.

(** Distinct stored paths stay distinct ignoring case. *)
Definition unique_ignoring_case (lower : bytes -> bytes) (ops : list op) : Prop :=
  forall n1 c1 n2 c2, newest_file n1 ops c1 -> newest_file n2 ops c2 ->
    lower (norm n1) = lower (norm n2) -> same_path n1 n2.

Lemma files_newest ops k c h : Forall plain_op ops ->
  (In (k, (c, h)) (w_files (run ops)) <-> newest_file k ops c /\ norm k = k /\ h = header_for_file k (blen c)).
Proof.
  intro Hp. pose proof (plain_run ops Hp) as [Hfn Hf _ _]. split.
  - intro Hin. rewrite Forall_forall in Hf. pose proof (Hf _ Hin) as (Hh & _ & _ & _ & Hn).
    split; [|auto]. apply file_history. unfold w_file. rewrite Hn. now rewrite (im_get_of_in _ _ _ Hfn Hin).
  - intros (Hn & Hk & ->). apply file_history in Hn. unfold w_file in Hn. rewrite Hk in Hn.
    destruct (im_get k (w_files (run ops))) as [[c' h']|] eqn:E; [|discriminate]. injection Hn as ->.
    apply im_get_in in E. rewrite Forall_forall in Hf. pose proof (Hf _ E) as (Hh & _). cbn in Hh. subst h'. exact E.
Qed.

Lemma newest_norm n ops c : newest_file n ops c -> newest_file (norm n) ops c.
Proof. intro H. apply file_history in H. apply file_history. unfold w_file in *. now rewrite norm_idem. Qed.

Section S.
  Context (lower sha : bytes -> bytes).

  Lemma headers_newest ops iter : Forall plain_op ops -> Permutation iter (w_files (run ops)) ->
    forall h, In h (sorted_headers lower iter) <->
      exists c, newest_file (h_name h) ops c /\ norm (h_name h) = h_name h /\ h = header_for_file (h_name h) (blen c).
  Proof.
    intros Hp HP h. unfold sorted_headers, files_sorted. split.
    - intro Hin. apply (Permutation_in _ (sort_by_perm _ _)) in Hin. apply in_map_iff in Hin as ([k [c h']] & Hh & Hin).
      cbn in Hh. subst h'. apply (Permutation_in _ HP) in Hin. apply (files_newest ops k c h Hp) in Hin as (H1 & H2 & H3).
      exists c. rewrite H3. cbn. auto.
    - intros (c & H1 & H2 & H3). apply (Permutation_in _ (Permutation_sym (sort_by_perm _ _))).
      apply in_map_iff. exists (h_name h, (c, h)). split; [reflexivity|].
      apply (Permutation_in _ (Permutation_sym HP)). apply files_newest; auto.
  Qed.

  Lemma header_names_nodup ops iter : Forall plain_op ops -> Permutation iter (w_files (run ops)) ->
    NoDup (map h_name (sorted_headers lower iter)).
  Proof.
    intros Hp HP. pose proof (plain_run ops Hp) as [Hfn Hf _ _].
    assert (E : map h_name (map (fun e : bytes * (bytes * header) => snd (snd e)) iter) = map fst iter).
    { rewrite map_map. apply map_ext_in. intros [k [c h]] Hin. cbn. apply (Permutation_in _ HP) in Hin.
      rewrite Forall_forall in Hf. pose proof (Hf _ Hin) as (Hh & _). cbn in Hh. now rewrite Hh. }
    unfold sorted_headers, files_sorted.
    eapply Permutation_NoDup; [symmetry; apply Permutation_map, sort_by_perm|].
    rewrite E. eapply Permutation_NoDup; [symmetry; apply Permutation_map; exact HP|exact Hfn].
  Qed.

  Lemma NoDup_map_inj {A B} (f : A -> B) l :
    NoDup l -> (forall x y, In x l -> In y l -> f x = f y -> x = y) -> NoDup (map f l).
  Proof.
    induction 1 as [|a l Hn HN IH]; intro Hf; cbn; [constructor|]. constructor.
    - rewrite in_map_iff. intros (b & Hb & Hin). apply Hn.
      rewrite <- (Hf b a); auto; [right; auto|left; auto].
    - apply IH. intros x y Hx Hy. apply Hf; right; auto.
  Qed.

  Lemma NoDup_of_map {A B} (f : A -> B) l : NoDup (map f l) -> NoDup l.
  Proof.
    induction l as [|a l IH]; cbn; intro H; [constructor|]. inversion H as [|? ? Hn HN]; subst.
    constructor; auto. intro Hin. apply Hn. now apply in_map.
  Qed.

  Lemma lnames_nodup ops iter : Forall plain_op ops -> Permutation iter (w_files (run ops)) ->
    unique_ignoring_case lower ops -> NoDup (map (lname lower) (sorted_headers lower iter)).
  Proof.
    intros Hp HP Hu. apply NoDup_map_inj.
    - eapply NoDup_of_map, header_names_nodup; eauto.
    - intros x y Hx Hy E. apply (headers_newest ops iter Hp HP) in Hx as (c1 & H1 & N1 & E1).
      apply (headers_newest ops iter Hp HP) in Hy as (c2 & H2 & N2 & E2).
      unfold lname in E. assert (Hs : same_path (h_name x) (h_name y)).
      { eapply Hu; eauto. now rewrite N1, N2. }
      apply same_path_norm in Hs. rewrite N1, N2 in Hs.
      rewrite Hs in H1. apply file_history in H1. apply file_history in H2. rewrite H1 in H2. injection H2 as ->.
      rewrite E1, E2. now rewrite Hs.
  Qed.

  Lemma first_match_single target (hs : list header) bodies h c :
    length hs = length bodies -> In (h, c) (combine hs bodies) -> lname lower h = target -> NoDup hs ->
    (forall h', In h' hs -> lname lower h' = target -> h' = h) ->
    first_match lower target hs bodies = Some c.
  Proof.
    unfold first_match. revert bodies; induction hs as [|h0 hs IH]; intros [|c0 bodies] Hl Hin Ht HN Hu;
      cbn in *; try contradiction; try discriminate.
    inversion HN as [|? ? Hn HN']; subst.
    destruct Hin as [E|Hin].
    - injection E as -> ->. now rewrite eqb_bytes_refl.
    - destruct (eqb_bytes (lname lower h0) (lname lower h)) eqn:E.
      + apply eqb_bytes_spec in E. apply Hu in E; [|auto]. subst h0. exfalso. apply Hn. eapply in_combine_l; eauto.
      + apply (IH bodies); auto.
  Qed.

  Lemma written_and_read (Hsha : forall x, length (sha x) = 20%nat) ops iter b :
    Forall plain_op ops -> Permutation iter (w_files (run ops)) ->
    exists out digest r,
      write lower sha iter b (run ops) = Ok (out, digest) /\ read out = Ok r /\ r_checksum r = digest /\
      r_props r = (if b then prefix_first (w_props (run ops)) else []) /\
      StronglySorted (fun x y => cmp_bytes (lower (h_name x)) (lower (h_name y)) <> Gt) (r_headers r) /\
      NoDup (map h_name (r_headers r)) /\
      (forall h, In h (r_headers r) <->
         exists c, newest_file (h_name h) ops c /\ norm (h_name h) = h_name h /\ h = header_for_file (h_name h) (blen c)) /\
      (forall name c, newest_file name ops c ->
         (forall n' c', newest_file n' ops c' -> lower (norm n') = lower (norm name) -> same_path n' name) ->
         r_file lower name r = Some c) /\
      (forall name, (forall n' c', newest_file n' ops c' -> lower (norm n') <> lower (norm name)) ->
         r_file lower name r = None).
  Proof.
    intros Hp HP. pose proof (plain_run ops Hp) as Hw.
    set (w := run ops) in *. set (hs := sorted_headers lower iter).
    pose proof (write_spec lower sha w iter b Hw HP) as Ew. pose proof (read_written lower sha Hsha w iter b Hw HP) as Er.
    cbn zeta in Ew, Er. fold hs in Ew, Er.
    eexists _, _, _. split; [exact Ew|]. split; [exact Er|]. cbn [r_checksum r_props r_headers].
    split; [auto|]. split; [auto|].
    split. { exact (sort_by_sorted (lname lower) _). }
    split. { eapply header_names_nodup; eauto. }
    split. { apply headers_newest; auto. }
    assert (Hf := fun r name => r_file_written lower sha w iter b r name Hw HP). cbn zeta in Hf. fold hs in Hf.
    split.
    - intros name c Hc Hu. rewrite Hf by reflexivity.
      pose proof (newest_norm _ _ _ Hc) as Hcn.
      set (h := header_for_file (norm name) (blen c)).
      assert (Hin : In h hs).
      { apply (headers_newest ops iter Hp HP). exists c. cbn. rewrite norm_idem. auto. }
      assert (Hb : body_of w h = c).
      { unfold body_of. cbn. apply file_history in Hcn. fold w in Hcn. now rewrite Hcn. }
      rewrite <- Hb at 1. apply (first_match_single _ hs (map (body_of w) hs) h).
      + now rewrite map_length.
      + now apply combine_self.
      + reflexivity.
      + eapply NoDup_of_map, header_names_nodup; eauto.
      + intros h' Hin' E. apply (headers_newest ops iter Hp HP) in Hin' as (c' & H1 & N1 & E1).
        unfold lname in E. rewrite <- N1 in E. pose proof (Hu _ _ H1 E) as Hs. apply same_path_norm in Hs.
        rewrite N1 in Hs. rewrite Hs in H1. apply file_history in H1. apply file_history in Hcn.
        rewrite H1 in Hcn. injection Hcn as ->. rewrite E1, Hs. reflexivity.
    - intros name Hu. rewrite Hf by reflexivity. apply first_match_none.
      intros h Hin E. apply (headers_newest ops iter Hp HP) in Hin as (c' & H1 & N1 & E1).
      eapply Hu; eauto. now rewrite N1.
  Qed.

  Lemma files_by_name_written w iter b r hs0 : plain_inv w -> Permutation iter (w_files w) ->
    let hs := sorted_headers lower iter in
    let pre := heads_of b w hs ++ concat (map (body_of w) hs) in
    r_headers r = hs -> r_blob r = blen (heads_of b w hs) -> r_input r = pre ++ [0] ++ sha pre ->
    NoDup (map (lname lower) hs) -> incl hs0 hs ->
    files_by_name lower r hs0 = Some (concat (map (body_of w) hs0)).
  Proof.
    intros Hw HP hs pre H1 H2 H3 HN Hi. induction hs0 as [|h hs0 IH]; cbn [files_by_name map concat]; [auto|].
    rewrite IH by (intros x Hx; apply Hi; right; auto).
    assert (Hh : In h hs) by (apply Hi; left; auto).
    rewrite (r_file_written lower sha w iter b r (h_name h) Hw HP H1 H2 H3). fold hs.
    destruct (iter_header lower w iter h Hw HP Hh) as (k & c & _ & Ek & _ & _ & _ & _ & Hn).
    rewrite (first_match_unique lower _ hs (map (body_of w) hs) h (body_of w h)); auto.
    - now rewrite map_length.
    - now apply combine_self.
    - unfold lname. f_equal. rewrite Ek. cbn. auto.
  Qed.

  Lemma write_props_prefix_first props : NoDup (map fst props) -> write_props (prefix_first props) = write_props props.
  Proof.
    intro H. rewrite !write_props_spec; auto.
    - f_equal. f_equal. unfold prefix_first. rewrite !filter_app.
      assert (F1 : forall l : list (bytes * bytes), filter (fun kv => eqb_bytes (fst kv) s_prefix) (filter (fun kv => eqb_bytes (fst kv) s_prefix) l) = filter (fun kv => eqb_bytes (fst kv) s_prefix) l).
      { induction l as [|x l IH]; cbn; [auto|]. destruct (eqb_bytes (fst x) s_prefix) eqn:E; cbn; rewrite ?E, ?IH; auto. }
      assert (F2 : forall l : list (bytes * bytes), filter (fun kv => eqb_bytes (fst kv) s_prefix) (filter (fun kv => negb (eqb_bytes (fst kv) s_prefix)) l) = []).
      { induction l as [|x l IH]; cbn; [auto|]. destruct (eqb_bytes (fst x) s_prefix) eqn:E; cbn; rewrite ?E, ?IH; auto. }
      assert (F3 : forall l : list (bytes * bytes), filter (fun kv => negb (eqb_bytes (fst kv) s_prefix)) (filter (fun kv => eqb_bytes (fst kv) s_prefix) l) = []).
      { induction l as [|x l IH]; cbn; [auto|]. destruct (eqb_bytes (fst x) s_prefix) eqn:E; cbn; rewrite ?E, ?IH; auto. }
      assert (F4 : forall l : list (bytes * bytes), filter (fun kv => negb (eqb_bytes (fst kv) s_prefix)) (filter (fun kv => negb (eqb_bytes (fst kv) s_prefix)) l) = filter (fun kv => negb (eqb_bytes (fst kv) s_prefix)) l).
      { induction l as [|x l IH]; cbn; [auto|]. destruct (eqb_bytes (fst x) s_prefix) eqn:E; cbn; rewrite ?E, ?IH; auto. }
      rewrite F1, F2, F3, F4. now rewrite app_nil_r.
    - eapply Permutation_NoDup; [symmetry; apply Permutation_map, prefix_first_perm|auto].
  Qed.

  (** gen_checksum on a written archive. *)
  Lemma gen_checksum_written (Hsha : forall x, length (sha x) = 20%nat) ops iter b out digest r :
    Forall plain_op ops -> Permutation iter (w_files (run ops)) -> unique_ignoring_case lower ops ->
    write lower sha iter b (run ops) = Ok (out, digest) -> read out = Ok r ->
    exists pre, digest = sha pre /\ out = pre ++ [0] ++ digest /\
      gen_checksum lower sha r = Ok (sha (if b then pre else 0 :: pre)).
  Proof.
    intros Hp HP Hu Hwr Hrd. pose proof (plain_run ops Hp) as Hw.
    set (w := run ops) in *. set (hs := sorted_headers lower iter).
    pose proof (write_spec lower sha w iter b Hw HP) as Ew. pose proof (read_written lower sha Hsha w iter b Hw HP) as Er.
    cbn zeta in Ew, Er. fold hs in Ew, Er.
    set (pre := heads_of b w hs ++ concat (map (body_of w) hs)) in *.
    rewrite Ew in Hwr.
    assert (Ho : out = pre ++ [0] ++ sha pre) by congruence. assert (Hd : digest = sha pre) by congruence.
    clear Hwr. subst out digest. rewrite Er in Hrd. injection Hrd as <-.
    exists pre. split; [auto|]. split; [auto|].
    unfold gen_checksum. cbn [r_vers r_props r_headers].
    assert (Hid : files_sorted lower hs = hs) by (unfold hs, sorted_headers, files_sorted; apply sort_by_idem).
    rewrite Hid.
    assert (HN : NoDup (map (lname lower) hs)) by (eapply lnames_nodup; eauto).
    rewrite (files_by_name_written w iter b) by (auto; try apply incl_refl; reflexivity). f_equal. f_equal.
    unfold pre, heads_of. destruct b.
    - rewrite write_props_prefix_first by apply Hw. rewrite <- !app_assoc. reflexivity.
    - cbn [app]. rewrite <- !app_assoc. reflexivity.
  Qed.

  (** Determinism. *)
  Lemma same_files_perm ops1 ops2 : Forall plain_op ops1 -> Forall plain_op ops2 ->
    (forall n c, newest_file n ops1 c <-> newest_file n ops2 c) ->
    Permutation (w_files (run ops1)) (w_files (run ops2)).
  Proof.
    intros H1 H2 He. apply NoDup_Permutation.
    - eapply NoDup_of_map. apply (plain_run _ H1).
    - eapply NoDup_of_map. apply (plain_run _ H2).
    - intros [k [c h]]. rewrite !files_newest by auto. now rewrite He.
  Qed.

  Lemma write_deterministic ops1 ops2 iter1 iter2 b :
    Forall plain_op ops1 -> Forall plain_op ops2 ->
    (forall n c, newest_file n ops1 c <-> newest_file n ops2 c) ->
    w_props (run ops1) = w_props (run ops2) ->
    Permutation iter1 (w_files (run ops1)) -> Permutation iter2 (w_files (run ops2)) ->
    unique_ignoring_case lower ops1 ->
    write lower sha iter1 b (run ops1) = write lower sha iter2 b (run ops2).
  Proof.
    intros H1 H2 He Hpr HP1 HP2 Hu.
    rewrite (write_spec lower sha _ iter1 b (plain_run _ H1) HP1), (write_spec lower sha _ iter2 b (plain_run _ H2) HP2).
    assert (Hhs : sorted_headers lower iter1 = sorted_headers lower iter2).
    { unfold sorted_headers, files_sorted. apply sort_by_perm_eq.
      - apply Permutation_map. rewrite HP1, HP2. now apply same_files_perm.
      - pose proof (lnames_nodup ops1 iter1 H1 HP1 Hu) as HN. unfold sorted_headers, files_sorted in HN.
        eapply Permutation_NoDup; [|exact HN]. apply Permutation_map, sort_by_perm. }
    rewrite Hhs. unfold heads_of. rewrite Hpr.
    assert (Hb : map (body_of (run ops1)) (sorted_headers lower iter2) = map (body_of (run ops2)) (sorted_headers lower iter2)).
    { apply map_ext. intro h. unfold body_of.
      destruct (w_file (h_name h) (run ops1)) as [c|] eqn:E1.
      - apply file_history in E1. apply He in E1. apply file_history in E1. now rewrite E1.
      - destruct (w_file (h_name h) (run ops2)) as [c|] eqn:E2; [|auto].
        apply file_history in E2. apply He in E2. apply file_history in E2. congruence. }
    rewrite Hb. reflexivity.
  Qed.
End S.
