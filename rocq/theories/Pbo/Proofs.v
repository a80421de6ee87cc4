From Verif Require Import Base.Tactics Base.Bytes Base.Sort Io.Model Io.Spec Io.Proofs Pbo.Model Pbo.Spec.
Local Open Scope N_scope.

(** ** skipN / takeN *)
Lemma skipN_app_exact a b : skipN (blen a) (a ++ b) = b.
Proof.
  induction a as [|x a IH]; cbn [app].
  - rewrite blen_nil. destruct b; reflexivity.
  - cbn [skipN]. rewrite blen_cons. destruct (1 + blen a =? 0) eqn:E; [apply N.eqb_eq in E; lia|].
    replace (1 + blen a - 1) with (blen a) by lia. auto.
Qed.

Lemma takeN_app_exact a b : takeN (blen a) (a ++ b) = a.
Proof.
  induction a as [|x a IH]; cbn [app].
  - rewrite blen_nil. destruct b; reflexivity.
  - cbn [takeN]. rewrite blen_cons. destruct (1 + blen a =? 0) eqn:E; [apply N.eqb_eq in E; lia|].
    replace (1 + blen a - 1) with (blen a) by lia. now rewrite IH.
Qed.

Lemma skipN_split n l : n <= blen l -> exists a, l = a ++ skipN n l /\ blen a = n.
Proof.
  revert n; induction l as [|b r IH]; intros n H; cbn [skipN].
  - rewrite blen_nil in H. exists []. rewrite blen_nil. split; [auto|lia].
  - destruct (n =? 0) eqn:E.
    + apply N.eqb_eq in E. exists []. rewrite blen_nil. auto.
    + apply N.eqb_neq in E. rewrite blen_cons in H.
      destruct (IH (n - 1)) as (a & Ha & Hl); [lia|]. exists (b :: a). rewrite blen_cons. split; [|lia].
      cbn [app]. now rewrite <- Ha.
Qed.

Lemma skipN_short n l : blen l <= n -> skipN n l = [].
Proof.
  revert n; induction l as [|b r IH]; intros n H; cbn [skipN]; [auto|].
  rewrite blen_cons in H. destruct (n =? 0) eqn:E; [apply N.eqb_eq in E; lia|]. apply IH; lia.
Qed.

Lemma skipN_nonempty n l : skipN n l <> [] -> n <= blen l.
Proof. intro H. destruct (N.le_gt_cases n (blen l)); [auto|]. exfalso; apply H, skipN_short. lia. Qed.

(** ** Headers *)
Definition header_ok (h : header) : Prop :=
  good_str (h_name h) /\ h_original h < 2 ^ 32 /\ h_reserved h < 2 ^ 32 /\ h_timestamp h < 2 ^ 32 /\ h_size h < 2 ^ 32.

Lemma mime_u32_lt m : mime_u32 m < 4294967296.
Proof. destruct m; reflexivity. Qed.

Lemma mime_roundtrip m : mime_of_u32 (mime_u32 m) = Some m.
Proof. destruct m; reflexivity. Qed.

Lemma mime_of_inv v m : mime_of_u32 v = Some m -> v = mime_u32 m.
Proof.
  unfold mime_of_u32. repeat (match goal with |- context [if ?c then _ else _] => destruct c eqn:? end;
    [intro H; injection H as <-; cbn [mime_u32]; now apply N.eqb_eq|]). discriminate.
Qed.

Lemma write_header_len h : blen (write_header h) = 20 + blen (h_name h) + 1.
Proof.
  unfold write_header. rewrite !blen_app. unfold u32_bytes, blen. rewrite !le_bytes_length. cbn [length]. lia.
Qed.

Lemma read_write_header h rest : header_ok h ->
  read_header (write_header h ++ rest) = Ok (h, blen (write_header h), rest).
Proof.
  intros ((Hu & Hn) & Ho & Hr & Ht & Hs). rewrite write_header_len.
  unfold read_header, write_header. rewrite <- !app_assoc. cbn [app].
  assert (E : read_cstring (h_name h ++ 0 :: u32_bytes (mime_u32 (h_mime h)) ++ u32_bytes (h_original h) ++
     u32_bytes (h_reserved h) ++ u32_bytes (h_timestamp h) ++ u32_bytes (h_size h) ++ rest)
     = (h_name h, u32_bytes (mime_u32 (h_mime h)) ++ u32_bytes (h_original h) ++
     u32_bytes (h_reserved h) ++ u32_bytes (h_timestamp h) ++ u32_bytes (h_size h) ++ rest)).
  { unfold read_cstring. rewrite until_nul_app by auto. now rewrite Hu. }
  rewrite E. rewrite read_u32_app by apply mime_u32_lt. cbn [of_opt bind].
  rewrite mime_roundtrip. rewrite !read_u32_app by auto. cbn [of_opt bind].
  rewrite !read_u32_app by auto. cbn [of_opt bind]. rewrite !read_u32_app by auto. cbn [of_opt bind].
  rewrite !read_u32_app by auto. cbn [of_opt bind]. destruct h; reflexivity.
Qed.

(** ** Insertion-ordered maps *)
Section IM.
  Context {V : Type}.
  Implicit Types m : list (bytes * V).

  Lemma im_get_insert_same k v m : im_get k (im_insert k v m) = Some v.
  Proof.
    induction m as [|[k' v'] m IH]; cbn; [now rewrite eqb_bytes_refl|].
    destruct (eqb_bytes k k') eqn:E; cbn; rewrite E; auto.
  Qed.

  Lemma im_get_insert_other k k0 v m : k <> k0 -> im_get k (im_insert k0 v m) = im_get k m.
  Proof.
    intro H. induction m as [|[k' v'] m IH]; cbn.
    - apply eqb_bytes_false in H. now rewrite H.
    - destruct (eqb_bytes k0 k') eqn:E; cbn.
      + apply eqb_bytes_spec in E; subst. apply eqb_bytes_false in H. now rewrite H.
      + now rewrite IH.
  Qed.

  Lemma im_insert_keys k v m : In k (map fst (im_insert k v m)).
  Proof.
    induction m as [|[k' v'] m IH]; cbn; [auto|]. destruct (eqb_bytes k k') eqn:E; cbn; auto.
    apply eqb_bytes_spec in E; auto.
  Qed.

  Lemma im_insert_in k v m k1 : In k1 (map fst (im_insert k v m)) <-> k1 = k \/ In k1 (map fst m).
  Proof.
    induction m as [|[k' v'] m IH]; cbn; [intuition|].
    destruct (eqb_bytes k k') eqn:E; cbn.
    - apply eqb_bytes_spec in E; subst. intuition.
    - rewrite IH. intuition.
  Qed.

  Lemma im_insert_nodup k v m : NoDup (map fst m) -> NoDup (map fst (im_insert k v m)).
  Proof.
    induction m as [|[k' v'] m IH]; cbn; intro H.
    - constructor; [auto|constructor].
    - inversion H as [|? ? Hn Hr]; subst. destruct (eqb_bytes k k') eqn:E; cbn; constructor; auto.
      rewrite im_insert_in. apply eqb_bytes_false in E. intros [->|Hin]; auto.
  Qed.

  Lemma im_insert_new k v m : ~ In k (map fst m) -> im_insert k v m = m ++ [(k, v)].
  Proof.
    induction m as [|[k' v'] m IH]; cbn; intro H; [auto|].
    destruct (eqb_bytes k k') eqn:E; [apply eqb_bytes_spec in E; subst; exfalso; auto|].
    rewrite IH; auto.
  Qed.

  Lemma im_insert_forall (P : bytes * V -> Prop) k v m :
    Forall P m -> (forall k', k' = k -> P (k', v)) -> Forall P (im_insert k v m).
  Proof.
    intros H HP. induction m as [|[k' v'] m IH]; cbn.
    - constructor; auto.
    - inversion H; subst. destruct (eqb_bytes k k') eqn:E; constructor; auto.
      apply HP. apply eqb_bytes_spec in E; auto.
  Qed.

  Lemma im_get_in k v m : im_get k m = Some v -> In (k, v) m.
  Proof.
    induction m as [|[k' v'] m IH]; cbn; [discriminate|].
    destruct (eqb_bytes k k') eqn:E; [|auto].
    intro H; injection H as ->. apply eqb_bytes_spec in E; subst; auto.
  Qed.

  Lemma im_get_of_in k v m : NoDup (map fst m) -> In (k, v) m -> im_get k m = Some v.
  Proof.
    induction m as [|[k' v'] m IH]; cbn; [intros _ []|]. intros HN [H|H].
    - injection H as -> ->. now rewrite eqb_bytes_refl.
    - inversion HN as [|? ? Hn Hr]; subst. destruct (eqb_bytes k k') eqn:E; [|auto].
      apply eqb_bytes_spec in E; subst. exfalso; apply Hn. change k' with (fst (k', v)). now apply in_map.
  Qed.

  Lemma im_get_none k m : im_get k m = None <-> ~ In k (map fst m).
  Proof.
    induction m as [|[k' v'] m IH]; cbn; [intuition|].
    destruct (eqb_bytes k k') eqn:E.
    - apply eqb_bytes_spec in E; subst. split; [discriminate|]. intro H; exfalso; auto.
    - apply eqb_bytes_false in E. rewrite IH. intuition.
  Qed.

  Lemma last_removelast (r : list (bytes * V)) d : r <> [] -> Permutation (last r d :: removelast r) r.
  Proof.
    intro H. rewrite (app_removelast_last d H) at 3. apply Permutation_cons_append.
  Qed.

  Lemma im_swap_remove_perm k m v : NoDup (map fst m) -> In (k, v) m -> Permutation ((k, v) :: im_swap_remove k m) m.
  Proof.
    induction m as [|[k' v'] m IH]; cbn; [intros _ []|]. intros HN Hin.
    inversion HN as [|? ? Hn Hr]; subst.
    destruct (eqb_bytes k k') eqn:E.
    - apply eqb_bytes_spec in E; subst k'. assert (v = v').
      { destruct Hin as [H|H]; [congruence|]. exfalso; apply Hn. change k with (fst (k, v)). now apply in_map. }
      subst v'. constructor. destruct m as [|y r]; [auto|]. apply last_removelast. discriminate.
    - destruct Hin as [H|H]; [injection H as -> ->; rewrite eqb_bytes_refl in E; discriminate|].
      rewrite perm_swap. constructor. auto.
  Qed.

  Lemma im_swap_remove_absent k m : ~ In k (map fst m) -> im_swap_remove k m = m.
  Proof.
    induction m as [|[k' v'] m IH]; cbn; [auto|]. intro H.
    destruct (eqb_bytes k k') eqn:E; [apply eqb_bytes_spec in E; subst; exfalso; auto|].
    rewrite IH; auto.
  Qed.

  Lemma in_keys_dec k m : {v | In (k, v) m} + {~ In k (map fst m)}.
  Proof.
    destruct (im_get k m) as [v|] eqn:E.
    - left. exists v. now apply im_get_in.
    - right. now apply im_get_none.
  Qed.

  Lemma im_swap_remove_nodup k m : NoDup (map fst m) -> NoDup (map fst (im_swap_remove k m)).
  Proof.
    intro H. destruct (in_keys_dec k m) as [[v Hv]|Hn]; [|now rewrite im_swap_remove_absent].
    pose proof (im_swap_remove_perm k m v H Hv) as HP.
    apply (Permutation_map fst) in HP. cbn in HP. symmetry in HP.
    apply (Permutation_NoDup HP) in H. now inversion H.
  Qed.

  Lemma im_get_swap_remove_same k m : NoDup (map fst m) -> im_get k (im_swap_remove k m) = None.
  Proof.
    intro H. destruct (in_keys_dec k m) as [[v Hv]|Hn].
    - pose proof (im_swap_remove_perm k m v H Hv) as HP.
      apply (Permutation_map fst) in HP. cbn in HP. symmetry in HP.
      apply (Permutation_NoDup HP) in H. inversion H; subst. now apply im_get_none.
    - rewrite im_swap_remove_absent by auto. now apply im_get_none.
  Qed.

  Lemma im_get_perm k m m' : NoDup (map fst m) -> Permutation m m' -> im_get k m = im_get k m'.
  Proof.
    intros HN HP. destruct (im_get k m) as [v|] eqn:E.
    - symmetry. apply im_get_of_in.
      + eapply Permutation_NoDup; [|exact HN]. now apply Permutation_map.
      + eapply Permutation_in; [exact HP|]. now apply im_get_in.
    - symmetry. apply im_get_none. apply im_get_none in E. intro Hin. apply E.
      eapply Permutation_in; [|exact Hin]. symmetry. now apply Permutation_map.
  Qed.

  Lemma im_get_swap_remove_other k k0 m : NoDup (map fst m) -> k <> k0 ->
    im_get k (im_swap_remove k0 m) = im_get k m.
  Proof.
    intros H Hk. destruct (in_keys_dec k0 m) as [[v Hv]|Hn]; [|now rewrite im_swap_remove_absent].
    pose proof (im_swap_remove_perm k0 m v H Hv) as HP.
    rewrite <- (im_get_perm k _ _ (Permutation_NoDup (Permutation_sym (Permutation_map fst HP)) H) HP).
    cbn. apply eqb_bytes_false in Hk. now rewrite Hk.
  Qed.

  Lemma im_swap_remove_incl k m x : In x (im_swap_remove k m) -> In x m.
  Proof.
    revert x; induction m as [|[k' v'] m IH]; cbn; [auto|]. intros x.
    destruct (eqb_bytes k k').
    - destruct m as [|y r]; [intros []|]. intro H. right.
      apply (Permutation_in _ (last_removelast (y :: r) y ltac:(discriminate))). exact H.
    - intros [H|H]; auto.
  Qed.
End IM.

(** ** Property block *)
Definition kv_bytes (kv : bytes * bytes) : bytes := write_cstring (fst kv) ++ write_cstring (snd kv).
Definition kv_good (kv : bytes * bytes) : Prop := good_str (fst kv) /\ fst kv <> [] /\ good_str (snd kv).

Lemma write_cstring_len s : blen (write_cstring s) = blen s + 1.
Proof. unfold write_cstring. rewrite blen_app. reflexivity. Qed.

Lemma read_props_spec fuel props cnt kvs rest :
  (length kvs < fuel)%nat -> Forall kv_good kvs ->
  read_props fuel props cnt (flat_map kv_bytes kvs ++ 0 :: rest) =
  Ok (fold_left (fun p kv => im_insert (fst kv) (snd kv) p) kvs props, cnt + blen (flat_map kv_bytes kvs) + 1, rest).
Proof.
  revert fuel props cnt; induction kvs as [|[k v] kvs IH]; intros fuel props cnt Hf Hg;
    (destruct fuel as [|f]; [cbn in Hf; lia|]); cbn [read_props flat_map app fold_left].
  - unfold read_cstring. cbn. repeat f_equal; lia.
  - inversion Hg as [|? ? Hkv Hg']; subst. destruct Hkv as ((Hku & Hkn) & Hk0 & Hvu & Hvn). cbn [fst snd] in *.
    unfold kv_bytes at 1. cbn [fst snd]. rewrite <- !app_assoc.
    rewrite read_write_cstring by auto. destruct k as [|b k]; [congruence|].
    rewrite read_write_cstring by auto.
    rewrite IH by (cbn in Hf; auto; lia).
    f_equal. f_equal. f_equal. rewrite blen_app. unfold kv_bytes at 2. cbn [fst snd].
    rewrite blen_app, !write_cstring_len. lia.
Qed.

Lemma fold_insert_fresh (kvs acc : list (bytes * bytes)) :
  NoDup (map fst (acc ++ kvs)) ->
  fold_left (fun p kv => im_insert (fst kv) (snd kv) p) kvs acc = acc ++ kvs.
Proof.
  revert acc; induction kvs as [|[k v] kvs IH]; intros acc H; cbn [fold_left].
  - now rewrite app_nil_r.
  - cbn [fst snd]. rewrite im_insert_new.
    + replace (acc ++ (k, v) :: kvs) with ((acc ++ [(k, v)]) ++ kvs) in * by (rewrite <- app_assoc; reflexivity).
      apply IH. exact H.
    + rewrite map_app in H. cbn in H. apply NoDup_remove_2 in H. intro Hin. apply H. apply in_or_app; auto.
Qed.

Lemma filter_prefix (props : list (bytes * bytes)) : NoDup (map fst props) ->
  filter (fun kv => eqb_bytes (fst kv) s_prefix) props =
  match im_get s_prefix props with Some v => [(s_prefix, v)] | None => [] end.
Proof.
  induction props as [|[k v] props IH]; cbn; [auto|]. intro H. inversion H as [|? ? Hn Hr]; subst.
  rewrite (eqb_bytes_sym s_prefix k). destruct (eqb_bytes k s_prefix) eqn:E.
  - apply eqb_bytes_spec in E; subst k. rewrite IH by auto.
    destruct (im_get s_prefix props) as [v'|] eqn:Eg; [|auto].
    exfalso. apply Hn. apply im_get_in in Eg. change s_prefix with (fst (s_prefix, v')). now apply in_map.
  - auto.
Qed.

Lemma write_props_spec props : NoDup (map fst props) ->
  write_props props = flat_map kv_bytes (prefix_first props) ++ [0].
Proof.
  intro H. unfold write_props, prefix_first. rewrite flat_map_app, filter_prefix by auto.
  rewrite <- app_assoc. f_equal.
  - destruct (im_get s_prefix props); cbn; rewrite ?app_nil_r; reflexivity.
  - f_equal. clear H. induction props as [|[k v] props IH]; cbn [flat_map filter fst snd]; [auto|].
    destruct (eqb_bytes k s_prefix); cbn [negb flat_map]; rewrite IH; [reflexivity|].
    unfold kv_bytes at 2. cbn [fst snd]. now rewrite <- app_assoc.
Qed.

Lemma prefix_first_perm props : Permutation (prefix_first props) props.
Proof.
  unfold prefix_first. induction props as [|x props IH]; cbn; [auto|].
  destruct (eqb_bytes (fst x) s_prefix); cbn.
  - apply perm_skip. exact IH.
  - rewrite <- Permutation_middle. apply perm_skip. exact IH.
Qed.

(** ** Header table *)
Lemma read_table_files fuel props vers heads blob hs rest :
  (length hs < fuel)%nat -> Forall (fun h => header_ok h /\ h_mime h <> Vers /\ h_name h <> []) hs ->
  read_table fuel props vers heads blob (flat_map write_header hs ++ write_header header_default ++ rest) =
  Ok (props, vers, heads ++ hs, blob + blen (flat_map write_header hs ++ write_header header_default), rest).
Proof.
  revert fuel heads blob; induction hs as [|h hs IH]; intros fuel heads blob Hf Hg;
    (destruct fuel as [|f]; [cbn in Hf; lia|]); cbn [read_table flat_map app].
  - rewrite read_write_header by (repeat split; try reflexivity; intros []).
    cbn [bind header_default h_mime h_name]. now rewrite app_nil_r.
  - inversion Hg as [|? ? (Ho & Hm & Hn) Hg']; subst.
    rewrite <- !app_assoc. rewrite read_write_header by auto. cbn [bind].
    destruct (h_mime h) eqn:Em; [congruence|..];
    (destruct (h_name h) as [|b nm] eqn:En; [congruence|];
     rewrite IH by (cbn in Hf; auto; lia); f_equal; f_equal; rewrite <- ?app_assoc; cbn [app];
     rewrite !blen_app; f_equal; lia).
Qed.

Lemma read_table_full fuel props hs rest :
  (S (length hs) < fuel)%nat -> NoDup (map fst props) -> Forall kv_good props ->
  Forall (fun h => header_ok h /\ h_mime h <> Vers /\ h_name h <> []) hs ->
  let heads := write_header header_property ++ write_props props ++ flat_map write_header hs ++ write_header header_default in
  read_table fuel [] None [] 0 (heads ++ rest) =
  Ok (prefix_first props, Some header_property, hs, blen heads, rest).
Proof.
  intros Hf HN Hp Hh heads. unfold heads. destruct fuel as [|f]; [lia|]. cbn [read_table].
  rewrite <- !app_assoc. rewrite read_write_header by (repeat split; try reflexivity; intros []).
  cbn [bind header_property h_mime].
  rewrite write_props_spec by auto. rewrite <- app_assoc.
  set (tl := flat_map write_header hs ++ write_header header_default ++ rest).
  cbn [app].
  rewrite read_props_spec; [|rewrite app_length; cbn [length]|].
  - cbn [bind]. rewrite fold_insert_fresh by (cbn; eapply Permutation_NoDup; [symmetry; apply Permutation_map, prefix_first_perm|auto]).
    unfold tl. rewrite read_table_files by (auto; lia). cbn [app].
    match goal with |- Ok (_, ?x, _) = Ok (_, ?y, _) => replace x with y; [reflexivity|] end.
    rewrite !blen_app, ?blen_cons, ?blen_nil. lia.
  - assert (H : forall l : list (bytes * bytes), (length l <= length (flat_map kv_bytes l))%nat).
    { induction l as [|kv l IHl]; cbn; [auto|]. rewrite app_length. unfold kv_bytes at 1, write_cstring.
      rewrite !app_length. cbn. lia. }
    specialize (H (prefix_first props)). lia.
  - eapply Permutation_Forall; [symmetry; apply prefix_first_perm|auto].
Qed.

Lemma read_table_noprops fuel hs rest :
  (length hs < fuel)%nat ->
  Forall (fun h => header_ok h /\ h_mime h <> Vers /\ h_name h <> []) hs ->
  let heads := flat_map write_header hs ++ write_header header_default in
  read_table fuel [] None [] 0 (heads ++ rest) = Ok ([], None, hs, blen heads, rest).
Proof.
  intros Hf Hh heads. unfold heads. rewrite <- app_assoc. rewrite read_table_files by auto. reflexivity.
Qed.

Lemma skip_bodies hs bodies rest :
  map blen bodies = map h_size hs ->
  fold_left (fun l h => skipN (h_size h) l) hs (concat bodies ++ rest) = rest.
Proof.
  revert bodies; induction hs as [|h hs IH]; intros [|c bodies] H; try discriminate; cbn; [auto|].
  cbn in H. injection H as Hc H. rewrite <- Hc, <- app_assoc, skipN_app_exact. auto.
Qed.
