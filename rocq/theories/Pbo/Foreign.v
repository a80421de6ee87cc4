(** Archives from anywhere: what the reader accepts. *)
From Verif Require Import Base.Tactics Base.Bytes Base.Sort Io.Model Io.Spec Io.Proofs Pbo.Model Pbo.Spec Pbo.Proofs Pbo.Roundtrip.
Local Open Scope N_scope.

Lemma raw_header_len h : blen (raw_header_bytes h) = 20 + blen (rh_name h) + 1.
Proof.
  unfold raw_header_bytes. rewrite !blen_app. unfold u32_bytes, blen. rewrite !le_bytes_length. cbn [length]. lia.
Qed.

Lemma bind_ok {A B} (r : res A) (k : A -> res B) b : bind r k = Ok b -> exists a, r = Ok a /\ k a = Ok b.
Proof. destruct r; cbn; [eauto|discriminate]. Qed.

Lemma of_opt_ok {A} (o : option A) a : of_opt o = Ok a -> o = Some a.
Proof. destruct o; cbn; congruence. Qed.

Lemma read_u32_inv l v rest : read_u32 l = Some (v, rest) -> is_bytes l ->
  l = u32_bytes v ++ rest /\ v < 2 ^ 32 /\ is_bytes rest.
Proof.
  intros H Hb. destruct (read_le_inv 4 l v rest H Hb) as [E Hv]. split; [exact E|]. split; [exact Hv|].
  rewrite E in Hb. now apply is_bytes_app in Hb as [_ ?].
Qed.

Lemma read_header_inv l h cnt rest : is_bytes l -> read_header l = Ok (h, cnt, rest) ->
  exists rh, l = raw_header_bytes rh ++ rest /\ no_nul (rh_name rh) /\ h = seen_header rh
    /\ cnt = 20 + blen (seen (rh_name rh)) + 1 /\ is_bytes rest /\
    rh_original rh < 2 ^ 32 /\ rh_reserved rh < 2 ^ 32 /\ rh_timestamp rh < 2 ^ 32 /\ rh_size rh < 2 ^ 32.
Proof.
  intros Hb H. unfold read_header, read_cstring in H.
  destruct (until_nul l) as [x l1] eqn:Eu. apply until_nul_inv in Eu as [Hn Hc].
  fold (seen x) in H.
  apply bind_ok in H as ([m l2] & E1 & H). apply of_opt_ok in E1.
  destruct Hc as [->|[_ ->]]; [|discriminate].
  apply is_bytes_app in Hb as [_ Hb]. apply is_bytes_cons in Hb as [_ Hb].
  destruct (mime_of_u32 m) as [mm|] eqn:Em; [|discriminate].
  apply bind_ok in H as ([o l3] & E2 & H). apply of_opt_ok in E2.
  apply bind_ok in H as ([rv l4] & E3 & H). apply of_opt_ok in E3.
  apply bind_ok in H as ([ts l5] & E4 & H). apply of_opt_ok in E4.
  apply bind_ok in H as ([sz l6] & E5 & H). apply of_opt_ok in E5.
  injection H as <- <- <-.
  apply read_u32_inv in E1 as (-> & ? & Hb1); [|auto]. apply read_u32_inv in E2 as (-> & ? & Hb2); [|auto].
  apply read_u32_inv in E3 as (-> & ? & Hb3); [|auto]. apply read_u32_inv in E4 as (-> & ? & Hb4); [|auto].
  apply read_u32_inv in E5 as (-> & ? & Hb5); [|auto].
  apply mime_of_inv in Em as ->.
  exists (RawHeader x mm o rv ts sz). unfold raw_header_bytes, seen_header. cbn.
  repeat (split; auto). rewrite <- ?app_assoc. reflexivity.
Qed.

Definition raw_kv (kv : bytes * bytes) : bytes := fst kv ++ [0] ++ snd kv ++ [0].

Lemma raw_kv_len kv : blen (raw_kv kv) = blen (fst kv) + blen (snd kv) + 2.
Proof. unfold raw_kv. rewrite !blen_app, !blen_cons, !blen_nil. lia. Qed.

(** Length as the reader counts it. *)
Definition seen_len (props : list (bytes * bytes)) : N :=
  fold_right (fun kv a => blen (seen (fst kv)) + 1 + blen (seen (snd kv)) + 1 + a) 0 props.

Lemma read_props_inv fuel props cnt l props' cnt' rest :
  is_bytes l -> read_props fuel props cnt l = Ok (props', cnt', rest) -> rest <> [] ->
  exists kvs stop,
    l = flat_map raw_kv kvs ++ stop ++ [0] ++ rest /\
    seen stop = [] /\ no_nul stop /\
    Forall (fun kv => seen (fst kv) <> [] /\ no_nul (fst kv) /\ no_nul (snd kv)) kvs /\
    cnt' = cnt + seen_len kvs + 1 /\ is_bytes rest.
Proof.
  revert props cnt l; induction fuel as [|f IH]; intros props cnt l Hb H Hr; [discriminate|].
  cbn [read_props] in H. unfold read_cstring in H.
  destruct (until_nul l) as [k l1] eqn:Ek. fold (seen k) in H.
  destruct (until_nul_inv _ _ _ Ek) as [Hkn Hk].
  destruct (seen k) as [|b sk] eqn:Es.
  - injection H as <- <- <-. exists [], k. cbn [flat_map app seen_len fold_right].
    destruct Hk as [->|[_ ->]]; [|congruence].
    apply is_bytes_app in Hb as [_ Hb]. apply is_bytes_cons in Hb as [_ Hb].
    rewrite blen_nil. repeat (split; auto); lia.
  - destruct (until_nul l1) as [v l2] eqn:Ev. fold (seen v) in H.
    destruct (until_nul_inv _ _ _ Ev) as [Hvn Hv].
    assert (Hrest : l2 = [] -> rest = []).
    { intros ->. destruct f; cbn in H; [discriminate|]. unfold read_cstring in H. cbn in H. now injection H. }
    destruct Hv as [->|[_ ->]]; [|exfalso; auto].
    destruct Hk as [->|[_ Hk]]; [|destruct v; discriminate].
    apply is_bytes_app in Hb as [_ Hb]. apply is_bytes_cons in Hb as [_ Hb].
    apply is_bytes_app in Hb as [_ Hb]. apply is_bytes_cons in Hb as [_ Hb].
    destruct (IH _ _ _ Hb H Hr) as (kvs & stop & -> & Hs & Hsn & Hf & -> & Hbr).
    exists ((k, v) :: kvs), stop. cbn [flat_map seen_len fold_right fst snd].
    split; [unfold raw_kv at 2; cbn [fst snd]; rewrite <- !app_assoc; reflexivity|].
    split; [auto|]. split; [auto|]. split; [constructor; auto; cbn; rewrite Es; repeat split; auto; congruence|].
    split; [|auto]. fold (seen_len kvs). rewrite Es. lia.
Qed.

(** The table length as the reader counts it. *)
Definition entry_seen_len (e : entry) : N :=
  match e with
  | FileEntry h => 20 + blen (seen (rh_name h)) + 1
  | VersEntry h props stop => 20 + blen (seen (rh_name h)) + 1 + seen_len props + 1
  end.
Definition table_seen_len (es : list entry) (term : raw_header) : N :=
  fold_right (fun e a => entry_seen_len e + a) 0 es + (20 + blen (seen (rh_name term)) + 1).

Definition entry_props (e : entry) : list (bytes * bytes) :=
  match e with FileEntry _ => [] | VersEntry _ props _ => props end.

Lemma read_table_inv fuel props vers heads blob l props' vers' heads' blob' rest :
  is_bytes l -> read_table fuel props vers heads blob l = Ok (props', vers', heads', blob', rest) ->
  exists es term,
    l = table_bytes es term ++ rest /\ Forall entry_ok es /\ terminator_ok term /\
    heads' = heads ++ files_of es /\ blob' = blob + table_seen_len es term /\ is_bytes rest.
Proof.
  revert props vers heads blob l; induction fuel as [|f IH]; intros props vers heads blob l Hb H; [discriminate|].
  cbn [read_table] in H. apply bind_ok in H as ([[h cnt] l1] & E & H).
  apply read_header_inv in E as (rh & -> & Hn & -> & -> & Hb1 & _); [|auto].
  assert (Hfile : rh_mime rh <> Vers ->
    match h_name (seen_header rh) with
    | [] => Ok (props, vers, heads, blob + (20 + blen (seen (rh_name rh)) + 1), l1)
    | _ => read_table f props vers (heads ++ [seen_header rh]) (blob + (20 + blen (seen (rh_name rh)) + 1)) l1
    end = Ok (props', vers', heads', blob', rest) ->
    exists es term,
    raw_header_bytes rh ++ l1 = table_bytes es term ++ rest /\ Forall entry_ok es /\ terminator_ok term /\
    heads' = heads ++ files_of es /\ blob' = blob + table_seen_len es term /\ is_bytes rest).
  { intros Hm H0. cbn [h_name seen_header] in H0. destruct (seen (rh_name rh)) as [|b s] eqn:Es.
    - injection H0 as <- <- <- <- <-. exists [], rh. unfold table_bytes, table_seen_len. cbn [flat_map app fold_right].
      rewrite Es, app_nil_r. repeat (split; auto).
    - destruct (IH _ _ _ _ _ Hb1 H0) as (es & term & -> & Hes & Ht & -> & -> & Hbr).
      exists (FileEntry rh :: es), term. unfold table_bytes. cbn [flat_map entry_bytes].
      split; [rewrite <- !app_assoc; reflexivity|].
      split; [constructor; auto; cbn; rewrite Es; repeat split; auto; congruence|].
      split; [auto|]. split; [rewrite <- app_assoc; reflexivity|]. split; [|auto].
      unfold table_seen_len. cbn [fold_right entry_seen_len]. rewrite Es. lia. }
  destruct (h_mime (seen_header rh)) eqn:Em; cbn in Em; try (apply Hfile; [congruence|exact H]).
  apply bind_ok in H as ([[props1 blob2] l2] & Ep & H).
  assert (Hl2 : l2 <> []).
  { intros ->. destruct f; [discriminate|]. cbn in H. discriminate. }
  destruct (read_props_inv _ _ _ _ _ _ _ Hb1 Ep Hl2) as (kvs & stop & -> & Hs & Hsn & Hf & -> & Hb2).
  destruct (IH _ _ _ _ _ Hb2 H) as (es & term & -> & Hes & Ht & -> & -> & Hbr).
  exists (VersEntry rh kvs stop :: es), term. unfold table_bytes. cbn [flat_map entry_bytes].
  split; [rewrite <- !app_assoc; reflexivity|]. split; [constructor; auto; cbn; auto|].
  split; [auto|]. split; [reflexivity|]. split; [|auto].
  unfold table_seen_len. cbn [fold_right entry_seen_len]. lia.
Qed.

Lemma seen_valid s : utf8_valid s = true -> seen s = s.
Proof. unfold seen. now intros ->. Qed.

Lemma seen_nonempty_valid s : seen s <> [] -> seen s = s.
Proof. unfold seen. destruct (utf8_valid s); congruence. Qed.

Lemma clean_len es term : Forall entry_ok es -> terminator_ok term -> table_clean es term ->
  table_seen_len es term = blen (table_bytes es term).
Proof.
  intros Hes Ht [Hc Hct]. unfold table_seen_len, table_bytes. rewrite blen_app, raw_header_len, seen_valid by auto.
  f_equal. clear Ht Hct. induction es as [|e es IH]; cbn [fold_right flat_map]; [reflexivity|].
  inversion Hes as [|? ? He Hes']; inversion Hc as [|? ? Hce Hc']; subst. rewrite blen_app, IH by auto. f_equal.
  destruct e as [h|h props stop]; cbn [entry_seen_len entry_bytes].
  - rewrite raw_header_len. cbn in He. rewrite seen_nonempty_valid by apply He. reflexivity.
  - cbn in He, Hce. destruct He as (_ & _ & Hs & _ & Hf). destruct Hce as (Hu & Hsu & Hpv).
    rewrite !blen_app, raw_header_len, seen_valid by auto.
    rewrite seen_valid in Hs by auto. subst stop. rewrite blen_nil, blen_cons, blen_nil.
    assert (E : blen (flat_map (fun kv => fst kv ++ [0] ++ snd kv ++ [0]) props) = seen_len props); [|lia].
    clear -Hf Hpv. induction props as [|kv props IH]; [reflexivity|].
    cbn [flat_map seen_len fold_right]. inversion Hf as [|? ? Hk Hf']; inversion Hpv; subst.
    rewrite blen_app, IH by auto. fold (raw_kv kv). rewrite raw_kv_len.
    rewrite seen_nonempty_valid by apply Hk. rewrite seen_valid by auto. fold (seen_len props). lia.
Qed.

Lemma fold_skip_total hs l rest0 : fold_left (fun l h => skipN (h_size h) l) hs l = rest0 -> rest0 <> [] ->
  exists bodies, l = concat bodies ++ rest0 /\ map blen bodies = map h_size hs.
Proof.
  revert l; induction hs as [|h hs IH]; intros l H Hr; cbn in H.
  - subst. exists []. auto.
  - assert (Hne : skipN (h_size h) l <> []).
    { intro E. rewrite E in H. apply Hr. rewrite <- H. clear. induction hs; cbn; auto. }
    destruct (IH _ H Hr) as (bodies & Hb & Hm).
    destruct (skipN_split (h_size h) l (skipN_nonempty _ _ Hne)) as (a & Ha & Hl).
    exists (a :: bodies). cbn [concat map]. rewrite <- app_assoc, <- Hb, Hl, Hm. auto.
Qed.

Lemma read_inv input r : is_bytes input -> read input = Ok r ->
  exists es term bodies sep,
    archive input es term bodies sep (r_checksum r) /\ r_headers r = files_of es /\ r_input r = input /\
    r_blob r = table_seen_len es term.
Proof.
  intros Hb H. unfold read in H.
  apply bind_ok in H as ([[[[props vers] heads] blob] l] & Et & H).
  destruct (read_table_inv _ _ _ _ _ _ _ _ _ _ _ Hb Et) as (es & term & -> & Hes & Ht & -> & -> & Hbl).
  cbn [app] in H.
  apply bind_ok in H as ([ck l3] & Ec & H). apply of_opt_ok in Ec.
  destruct l3; [|discriminate]. injection H as <-. cbn.
  apply take_exact_inv in Ec as [Ec Hck]. rewrite app_nil_r in Ec.
  remember (fold_left (fun l h => skipN (h_size h) l) (files_of es) l) as l1 eqn:E1.
  assert (Hl1 : l1 <> []) by (intros ->; cbn in Ec; subst ck; discriminate).
  destruct (fold_skip_total _ _ _ (eq_sym E1) Hl1) as (bodies & -> & Hm).
  destruct l1 as [|sep ck']; [congruence|].
  assert (Hs : skipN 1 (sep :: ck') = ck') by (cbn; destruct ck'; reflexivity). rewrite Hs in Ec. subst ck'.
  exists es, term, bodies, sep. unfold archive. repeat (split; auto).
Qed.

(** Completeness: every archive is accepted. *)
Definition raw_ok (h : raw_header) : Prop :=
  rh_original h < 2 ^ 32 /\ rh_reserved h < 2 ^ 32 /\ rh_timestamp h < 2 ^ 32 /\ rh_size h < 2 ^ 32.
Definition entry_fields_ok (e : entry) : Prop :=
  match e with FileEntry h => raw_ok h | VersEntry h _ _ => raw_ok h end.

Lemma read_raw_header h rest : raw_ok h -> no_nul (rh_name h) ->
  read_header (raw_header_bytes h ++ rest) = Ok (seen_header h, 20 + blen (seen (rh_name h)) + 1, rest).
Proof.
  intros (Ho & Hr & Ht & Hs) Hn. unfold read_header, raw_header_bytes, read_cstring.
  rewrite <- !app_assoc. cbn [app]. rewrite until_nul_app by auto. fold (seen (rh_name h)).
  rewrite read_u32_app by apply mime_u32_lt. cbn [of_opt bind]. rewrite mime_roundtrip.
  do 4 (rewrite read_u32_app by auto; cbn [of_opt bind]). reflexivity.
Qed.

Lemma read_raw_props fuel props cnt kvs stop rest :
  (length kvs < fuel)%nat -> seen stop = [] -> no_nul stop ->
  Forall (fun kv => seen (fst kv) <> [] /\ no_nul (fst kv) /\ no_nul (snd kv)) kvs ->
  exists props', read_props fuel props cnt (flat_map raw_kv kvs ++ stop ++ [0] ++ rest)
    = Ok (props', cnt + seen_len kvs + 1, rest).
Proof.
  revert fuel props cnt; induction kvs as [|[k v] kvs IH]; intros fuel props cnt Hf Hs Hn Hk;
    (destruct fuel as [|f]; [cbn in Hf; lia|]); cbn [flat_map app read_props]; unfold read_cstring.
  - rewrite until_nul_app by auto. fold (seen stop). rewrite Hs. exists props. cbn [seen_len fold_right].
    rewrite blen_nil. repeat f_equal; lia.
  - inversion Hk as [|? ? (Hk1 & Hk2 & Hk3) Hk']; subst. cbn [fst snd] in *. unfold raw_kv at 1. cbn [fst snd].
    rewrite <- !app_assoc. cbn [app]. rewrite until_nul_app by auto. fold (seen k).
    destruct (seen k) as [|b s] eqn:Es; [congruence|]. rewrite until_nul_app by auto. fold (seen v).
    edestruct (IH f) as [props' E]; [cbn in Hf; lia|auto..|]. cbn [app] in E. rewrite E. exists props'.
    cbn [seen_len fold_right fst snd]. fold (seen_len kvs). rewrite Es.
    match goal with |- Ok (_, ?x, _) = Ok (_, ?y, _) => replace x with y; [reflexivity|] end. lia.
Qed.

Lemma read_raw_table fuel props vers heads blob es term rest :
  (length es < fuel)%nat -> Forall entry_ok es -> Forall entry_fields_ok es ->
  terminator_ok term -> raw_ok term ->
  exists props' vers', read_table fuel props vers heads blob (table_bytes es term ++ rest)
    = Ok (props', vers', heads ++ files_of es, blob + table_seen_len es term, rest).
Proof.
  revert fuel props vers heads blob; induction es as [|e es IH]; intros fuel props vers heads blob Hf He Hef Ht Htf;
    (destruct fuel as [|f]; [cbn in Hf; lia|]); unfold table_bytes; cbn [flat_map app read_table].
  - destruct Ht as (Hm & Hs & Hn). rewrite read_raw_header by auto. cbn [bind h_mime seen_header h_name].
    rewrite Hs. exists props, vers. unfold table_seen_len. cbn [fold_right]. unfold files_of. cbn. rewrite app_nil_r, Hs.
    destruct (rh_mime term); try congruence; reflexivity.
  - inversion He as [|? ? He1 He2]; inversion Hef as [|? ? Hf1 Hf2]; subst. rewrite <- !app_assoc.
    destruct e as [h|h kvs stop]; cbn [entry_bytes entry_ok entry_fields_ok] in *.
    + destruct He1 as (Hm & Hs & Hn). rewrite read_raw_header by auto. cbn [bind].
      destruct (IH f props vers (heads ++ [seen_header h]) (blob + (20 + blen (seen (rh_name h)) + 1)))
        as (props' & vers' & E); [cbn in Hf; lia|auto..|].
      exists props', vers'. unfold table_bytes in E. rewrite <- app_assoc in E.
      change (h_mime (seen_header h)) with (rh_mime h). change (h_name (seen_header h)) with (seen (rh_name h)).
      rewrite E. unfold files_of, table_seen_len; cbn [fold_right entry_seen_len flat_map entry_files app map].
      rewrite <- app_assoc; cbn [app].
      destruct (seen (rh_name h)) as [|b s] eqn:Es; [congruence|].
      destruct (rh_mime h) eqn:Em; try congruence;
      (match goal with |- Ok (_, ?x, _) = Ok (_, ?y, _) => replace x with y; [reflexivity|] end; lia).
    + destruct He1 as (Hm & Hn & Hs & Hsn & Hk). rewrite <- !app_assoc. rewrite read_raw_header by auto.
      cbn [bind]. change (h_mime (seen_header h)) with (rh_mime h). rewrite Hm.
      assert (Hlen : forall l : list (bytes * bytes), (length l <= length (flat_map raw_kv l))%nat).
      { induction l as [|kv l IHl]; cbn; [auto|]. rewrite app_length. unfold raw_kv at 1. rewrite !app_length. cbn. lia. }
      change (fun kv : bytes * bytes => fst kv ++ [0] ++ snd kv ++ [0]) with raw_kv.
      destruct (read_raw_props (S (length (flat_map raw_kv kvs ++ stop ++ [0] ++ flat_map entry_bytes es ++ raw_header_bytes term ++ rest)))
        props (blob + (20 + blen (seen (rh_name h)) + 1)) kvs stop (flat_map entry_bytes es ++ raw_header_bytes term ++ rest)) as [pr Ep];
        [|exact Hs|exact Hsn|exact Hk|].
      { rewrite app_length. specialize (Hlen kvs). lia. }
      rewrite Ep. cbn [bind].
      destruct (IH f pr (Some (seen_header h)) heads (blob + (20 + blen (seen (rh_name h)) + 1) + seen_len kvs + 1))
        as (props' & vers' & E); [cbn in Hf; lia|auto..|].
      exists props', vers'. unfold table_bytes in E. rewrite <- app_assoc in E. rewrite E.
      unfold files_of, table_seen_len; cbn [fold_right entry_seen_len flat_map entry_files app map].
      match goal with |- Ok (_, ?x, _) = Ok (_, ?y, _) => replace x with y; [reflexivity|] end; lia.
Qed.

Lemma read_complete input es term bodies sep ck :
  archive input es term bodies sep ck -> Forall entry_fields_ok es -> raw_ok term ->
  exists r, read input = Ok r /\ r_headers r = files_of es /\ r_checksum r = ck.
Proof.
  intros (Hi & Hm & Hck & He & Ht) Hef Htf. unfold read.
  assert (Hlen : (length es <= length (flat_map entry_bytes es))%nat).
  { clear. induction es as [|e es IH]; cbn; [auto|]. rewrite app_length.
    assert (1 <= length (entry_bytes e))%nat; [|lia].
    destruct e as [h|h ? ?]; cbn; rewrite ?app_length; pose proof (raw_header_len h) as H; unfold blen in H; lia. }
  edestruct (read_raw_table (S (length input)) [] None [] 0 es term) as (props & vers & E); [|exact He|exact Hef|exact Ht|exact Htf|].
  { rewrite Hi. unfold table_bytes. rewrite !app_length. lia. }
  rewrite <- Hi in E. rewrite E. cbn [bind app]. rewrite skip_bodies by auto.
  assert (Hs : skipN 1 (sep :: ck) = ck) by (cbn; destruct ck; reflexivity). cbn [app]. rewrite Hs.
  assert (Hte : take_exact 20 ck = Some (ck, [])).
  { rewrite <- (app_nil_r ck) at 1. now apply take_exact_app'. }
  rewrite Hte. cbn [of_opt bind].
  eexists. split; [reflexivity|]. auto.
Qed.

(** The reader never runs out of fuel. *)
Lemma read_cstring_rest l x rest : read_cstring l = (x, rest) -> x <> [] -> (length rest < length l)%nat.
Proof.
  unfold read_cstring. destruct (until_nul l) as [y r] eqn:E. intro H. injection H as <- <-. intro Hx.
  destruct (until_nul_inv _ _ _ E) as [_ [->|[-> ->]]].
  - rewrite app_length. cbn. lia.
  - destruct y; cbn; [destruct (utf8_valid []); congruence|lia].
Qed.

Lemma read_cstring_rest_le l x rest : read_cstring l = (x, rest) -> (length rest <= length l)%nat.
Proof.
  unfold read_cstring. destruct (until_nul l) as [y r] eqn:E. intro H. injection H as <- <-.
  destruct (until_nul_inv _ _ _ E) as [_ [->|[-> ->]]]; [rewrite app_length; cbn; lia|cbn; lia].
Qed.

Lemma read_props_fuel fuel props cnt l : (length l < fuel)%nat ->
  exists p c rest, read_props fuel props cnt l = Ok (p, c, rest) /\ (length rest <= length l)%nat.
Proof.
  revert props cnt l; induction fuel as [|f IH]; intros props cnt l Hl; [lia|]. cbn [read_props].
  destruct (read_cstring l) as [k l1] eqn:Ek. pose proof (read_cstring_rest_le _ _ _ Ek).
  destruct k as [|b k]; [eauto 10|]. apply read_cstring_rest in Ek; [|congruence].
  destruct (read_cstring l1) as [v l2] eqn:Ev. apply read_cstring_rest_le in Ev.
  destruct (IH (im_insert (b :: k) v props) (cnt + blen (b :: k) + 1 + blen v + 1) l2) as (p & c & rest & -> & Hr); [lia|].
  exists p, c, rest. split; [auto|lia].
Qed.

Lemma read_u32_len l v r : read_u32 l = Some (v, r) -> length l = (4 + length r)%nat.
Proof.
  unfold read_u32, read_le. destruct (take_exact 4 l) as [[x rest]|] eqn:E; [|discriminate].
  intro H. injection H as _ <-. apply take_exact_inv in E as [-> Hx]. rewrite app_length. lia.
Qed.

Lemma read_header_len l h c rest : read_header l = Ok (h, c, rest) -> (length rest < length l)%nat.
Proof.
  unfold read_header. destruct (read_cstring l) as [n l1] eqn:En. apply read_cstring_rest_le in En. intro H.
  apply bind_ok in H as ([m l2] & E1 & H). apply of_opt_ok in E1. apply read_u32_len in E1.
  destruct (mime_of_u32 m); [|discriminate].
  apply bind_ok in H as ([o l3] & E2 & H). apply of_opt_ok in E2. apply read_u32_len in E2.
  apply bind_ok in H as ([rv l4] & E3 & H). apply of_opt_ok in E3. apply read_u32_len in E3.
  apply bind_ok in H as ([ts l5] & E4 & H). apply of_opt_ok in E4. apply read_u32_len in E4.
  apply bind_ok in H as ([sz l6] & E5 & H). apply of_opt_ok in E5. apply read_u32_len in E5.
  injection H as _ _ <-. lia.
Qed.

Lemma read_header_no_fuel l : read_header l <> Err EOutOfFuel.
Proof.
  unfold read_header. destruct (read_cstring l) as [n l1].
  destruct (read_u32 l1) as [[m l2]|]; cbn; [|congruence]. destruct (mime_of_u32 m); [|congruence].
  do 4 (match goal with |- context [read_u32 ?x] => destruct (read_u32 x) as [[? ?]|]; cbn; [|congruence] end).
  congruence.
Qed.

Lemma read_table_fuel fuel props vers heads blob l : (length l < fuel)%nat ->
  read_table fuel props vers heads blob l <> Err EOutOfFuel.
Proof.
  revert props vers heads blob l; induction fuel as [|f IH]; intros props vers heads blob l Hl; [lia|]. cbn [read_table].
  destruct (read_header l) as [[[h c] l1]|e] eqn:Eh; cbn [bind]; [|intro H; injection H as ->; now apply read_header_no_fuel in Eh].
  apply read_header_len in Eh.
  destruct (h_mime h); try (destruct (h_name h); [congruence|apply IH; lia]).
  destruct (read_props_fuel (S (length l1)) props (blob + c) l1) as (p & c' & rest & -> & Hr); [lia|]. cbn [bind].
  apply IH. lia.
Qed.

Lemma read_no_fuel input : read input <> Err EOutOfFuel.
Proof.
  unfold read. pose proof (read_table_fuel (S (length input)) [] None [] 0 input ltac:(lia)) as H.
  destruct (read_table _ _ _ _ _ _) as [[[[[p v] h] b] l]|e]; cbn [bind]; [|congruence].
  destruct (take_exact 20 _) as [[c l3]|]; cbn; [|congruence]. destruct l3; congruence.
Qed.

(** Files of an accepted archive. *)
Lemma foreign_file lower input r es term bodies sep :
  archive input es term bodies sep (r_checksum r) -> r_headers r = files_of es -> r_input r = input ->
  r_blob r = blen (table_bytes es term) ->
  forall name, r_file lower name r = first_match lower (lower (norm name)) (r_headers r) bodies.
Proof.
  intros (Hi & Hm & _) Hh Hin Hb name. unfold r_file. rewrite Hin, Hb, Hi, skipN_app_exact, Hh.
  now apply file_go_spec.
Qed.
