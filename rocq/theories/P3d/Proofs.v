From Coq Require Import String.
From Verif Require Import Base.Tactics Base.Bytes Base.Ascii Io.Model Io.Spec Io.Proofs P3d.Model P3d.Spec.
Local Open Scope N_scope.
Local Open Scope list_scope.

Lemma same_bytes_eq : forall a b, same_bytes a b = true <-> a = b.
Proof.
  induction a as [|x a IH]; intros [|y b]; cbn; split; intros H; try discriminate; auto.
  - apply andb_true_iff in H as [H1 H2]. apply N.eqb_eq in H1. apply IH in H2. now subst.
  - injection H as -> ->. rewrite N.eqb_refl. now apply IH.
Qed.
Lemma same_bytes_refl a : same_bytes a a = true.
Proof. now apply same_bytes_eq. Qed.
Lemma same_bytes_neq a b : a <> b -> same_bytes a b = false.
Proof. intros H. apply not_true_iff_false. now rewrite same_bytes_eq. Qed.

(** ** Writing succeeds *)
Lemma write_many_some : forall A (w : A -> option bytes) l, (exists b, write_many w l = Some b) <-> Forall (fun a => exists b, w a = Some b) l.
Proof.
  intros A w l. induction l as [|a l IH]; cbn [write_many].
  - split; [constructor | eauto].
  - split.
    + intros [b H]. destruct (w a) as [x|] eqn:E; [|discriminate]. destruct (write_many w l) as [y|]; [|discriminate].
      constructor; [eauto|]. apply IH. eauto.
    + intros F. inversion F as [|? ? [x Hx] F']; subst. apply IH in F' as [y ->]. rewrite Hx. eauto.
Qed.
Lemma count_some : forall A (l : list A), (exists n, count l = Some n) <-> fits l.
Proof.
  intros A l. unfold count, fits. destruct (N.of_nat (length l) <? 4294967296) eqn:E.
  - apply N.ltb_lt in E. split; eauto.
  - apply N.ltb_ge in E. split; [intros [n H]; discriminate | lia].
Qed.
Lemma count_val : forall A (l : list A) n, count l = Some n -> n = N.of_nat (length l) /\ n < 4294967296.
Proof.
  intros A l n H. unfold count in H. destruct (N.of_nat (length l) <? 4294967296) eqn:E; [|discriminate].
  apply Some_inj in H. subst n. apply N.ltb_lt in E. auto.
Qed.
Lemma write_vertex_some : forall v, exists b, write_vertex v = Some b.
Proof. intros. eexists; reflexivity. Qed.
Lemma write_vertices_some : forall l, exists b, write_many write_vertex l = Some b.
Proof. intros l. apply write_many_some. induction l; constructor; auto using write_vertex_some. Qed.
Lemma storable_face_fits : forall f, storable_face f -> fits (vertices f).
Proof. intros f H. unfold fits, storable_face in *. lia. Qed.
Lemma write_face_some : forall f, (exists b, write_face f = Some b) <-> storable_face f.
Proof.
  intros f. unfold write_face. destruct (count (vertices f)) as [n|] eqn:E.
  - apply count_val in E as [-> E]. destruct (write_vertices_some (vertices f)) as [vs ->].
    unfold storable_face. split.
    + intros [b H]. destruct (_ || _)%bool eqn:E2; [|discriminate]. apply orb_true_iff in E2 as [E2|E2]; apply N.eqb_eq in E2; lia.
    + intros H. assert (E2 : ((N.of_nat (length (vertices f)) =? 3) || (N.of_nat (length (vertices f)) =? 4))%bool = true).
      { apply orb_true_iff. destruct H as [-> | ->]; [left|right]; reflexivity. }
      rewrite E2. destruct (N.of_nat (length (vertices f)) =? 3); [destruct (write_vertex_some (Vertex 0 0 0 0)) as [b ->]|]; eauto.
  - split; [intros [b H]; discriminate|]. intros H. apply storable_face_fits in H. apply count_some in H as [n H]. congruence.
Qed.
Lemma write_tagg_some : forall t, (exists b, write_tagg t = Some b) <-> fits (snd t).
Proof.
  intros t. unfold write_tagg. destruct (count (snd t)) as [n|] eqn:E.
  - split; [intros _; apply count_some; eauto | eauto].
  - split; [intros [b H]; discriminate|]. intros H. apply count_some in H as [n H]. congruence.
Qed.
Lemma Forall_iff : forall A (P Q : A -> Prop) l, (forall a, P a <-> Q a) -> Forall P l <-> Forall Q l.
Proof. intros A P Q l H. split; apply Forall_impl; intros; now apply H. Qed.
Lemma write_lod_some : forall d, (exists b, write_lod d = Some b) <-> storable_lod d.
Proof.
  intros d. unfold storable_lod. rewrite <- !count_some, <- (Forall_iff _ _ _ (faces d) write_face_some), <- (Forall_iff _ _ _ (taggs d) write_tagg_some), <- !write_many_some.
  unfold write_lod.
  assert (Hp : exists b, write_many write_point (points d) = Some b).
  { apply write_many_some. generalize (points d). intros l. induction l; constructor; auto. eexists; reflexivity. }
  assert (Hn : exists b, write_many write_normal (face_normals d) = Some b).
  { apply write_many_some. generalize (face_normals d). intros l. induction l as [|[[? ?] ?] l IH]; constructor; auto. eexists; reflexivity. }
  destruct Hp as [ps ->], Hn as [ns ->].
  destruct (count (points d)), (count (face_normals d)), (count (faces d)), (write_many write_face (faces d)), (write_many write_tagg (taggs d)); split;
    try (intros [b H]; discriminate); try (intros ([a1 H1] & [a2 H2] & [a3 H3] & [a4 H4] & [a5 H5]); discriminate).
  - intros _. repeat split; eexists; reflexivity.
  - intros _. eexists; reflexivity.
Qed.
Theorem write_some : forall m, (exists b, write m = Some b) <-> storable m.
Proof.
  intros m. unfold storable. rewrite <- count_some, <- (Forall_iff _ _ _ (lods m) write_lod_some), <- write_many_some. unfold write.
  destruct (count (lods m)), (write_many write_lod (lods m)); split; try (intros [b H]; discriminate); try (intros [[a H] [b H']]; discriminate); eauto.
Qed.

(** ** Reading back *)
Definition good {A} (w : A -> option bytes) (r : bytes -> option (A * bytes)) (a : A) : Prop :=
  forall b rest, w a = Some b -> r (b ++ rest) = Some (a, rest).
Lemma read_write_many : forall A (w : A -> option bytes) r l, Forall (good w r) l -> forall b rest, write_many w l = Some b ->
  read_many (length l) r (b ++ rest) = Some (l, rest).
Proof.
  intros A w r l F. induction F as [|a l Ha F IH]; intros b rest H; cbn in H.
  - apply Some_inj in H. subst b. reflexivity.
  - destruct (w a) as [x|] eqn:E; [|discriminate]. destruct (write_many w l) as [y|]; [|discriminate].
    apply Some_inj in H. subst b. cbn [length read_many]. rewrite <- app_assoc, (Ha x _ E), (IH y rest eq_refl). reflexivity.
Qed.
Lemma read_write_count : forall A (w : A -> option bytes) r l b rest n, Forall (good w r) l -> write_many w l = Some b -> count l = Some n ->
  read_many (N.to_nat n) r (b ++ rest) = Some (l, rest).
Proof. intros A w r l b rest n F H Hn. apply count_val in Hn as [-> _]. rewrite Nat2N.id. now apply read_write_many with w. Qed.
Ltac step := rewrite <- ?app_assoc; rewrite read_u32_app by assumption.
Lemma good_vertex : forall v, typed_vertex v -> good write_vertex read_vertex v.
Proof.
  intros [p n a b] (H1 & H2 & H3 & H4) w rest H. unfold write_vertex in H. apply Some_inj in H. subst w. cbn in H1, H2, H3, H4. unfold u32 in *.
  cbn [point_index normal_index uv0 uv1]. unfold read_vertex. do 4 step. reflexivity.
Qed.
Lemma good_point : forall v, typed_point v -> good write_point read_point v.
Proof.
  intros [p n a b] (H1 & H2 & H3 & H4) w rest H. unfold write_point in H. apply Some_inj in H. subst w. cbn in H1, H2, H3, H4. unfold u32 in *.
  cbn [x y z point_flags]. unfold read_point. do 4 step. reflexivity.
Qed.
Lemma good_normal : forall v, typed_normal v -> good write_normal read_normal v.
Proof.
  intros [[p n] a] (H1 & H2 & H3) w rest H. unfold write_normal in H. apply Some_inj in H. subst w. unfold u32 in *.
  unfold read_normal. do 3 step. reflexivity.
Qed.
Lemma good_face : forall f, typed_face f -> plain_face f -> good write_face read_face f.
Proof.
  intros [vs fl t m] (Hv & Hf & [Ht1 Ht2] & [Hm1 Hm2]) [Pt Pm] w rest H. cbn [vertices face_flags texture material] in *. unfold write_face in H.
  cbn [vertices face_flags texture material] in H.
  destruct (count vs) as [n|] eqn:En; [|discriminate]. destruct ((n =? 3) || (n =? 4))%bool eqn:E; [|discriminate].
  destruct (write_many write_vertex vs) as [bv|] eqn:Ev; [|discriminate].
  assert (Hn := count_val _ _ _ En). destruct Hn as [_ Hn].
  destruct (if n =? 3 then write_vertex (Vertex 0 0 0 0) else Some []) as [extra|] eqn:Ee; [|discriminate].
  apply Some_inj in H. subst w. unfold read_face. unfold u32 in Hf. rewrite <- !app_assoc. rewrite read_u32_app by assumption. rewrite E.
  rewrite (read_write_count _ write_vertex read_vertex vs bv _ n); auto.
  2:{ eapply Forall_impl; [|exact Hv]. apply good_vertex. }
  destruct (n =? 3).
  - rewrite (good_vertex (Vertex 0 0 0 0)) by (try exact Ee; repeat split; cbn; reflexivity).
    rewrite read_u32_app by assumption. rewrite !read_write_cstring by assumption. reflexivity.
  - apply Some_inj in Ee. subst extra. cbn [app]. rewrite read_u32_app by assumption. rewrite !read_write_cstring by assumption. reflexivity.
Qed.

Lemma insert_new : forall m k v, ~ In k (map fst m) -> insert m k v = m ++ [(k, v)].
Proof.
  induction m as [|[k' v'] m IH]; intros k v H; cbn; auto. cbn in H. rewrite same_bytes_neq by (intros ->; tauto). rewrite IH by tauto. reflexivity.
Qed.
Lemma read_end : forall fuel m rest, (0 < fuel)%nat -> read_taggs fuel m (write_cstring (1 :: end_of_file) ++ u32_bytes 0 ++ rest) = Some (m, rest).
Proof.
  intros [|fuel] m rest H; [lia|]. cbn [read_taggs].
  replace (skip 1 (write_cstring (1 :: end_of_file) ++ u32_bytes 0 ++ rest)) with (write_cstring end_of_file ++ u32_bytes 0 ++ rest) by reflexivity.
  rewrite read_write_cstring; [| intros Hin; vm_compute in Hin; intuition discriminate | reflexivity].
  rewrite read_u32_app by reflexivity. cbn [N.to_nat take_exact]. now rewrite same_bytes_refl.
Qed.
Lemma read_write_taggs : forall l, Forall (fun t => string (fst t) /\ is_bytes (snd t)) l -> Forall (fun t => no_nul (fst t) /\ fst t <> bs "#EndOfFile#") l ->
  forall m b rest fuel, NoDup (map fst (m ++ l)) -> write_many write_tagg l = Some b -> (length b < fuel)%nat ->
  read_taggs fuel m (b ++ write_cstring (1 :: end_of_file) ++ u32_bytes 0 ++ rest) = Some (m ++ l, rest).
Proof.
  intros l. induction l as [|[k v] l IH]; intros Ft Fp m b rest fuel Hnd H Hf; cbn [write_many] in H.
  - apply Some_inj in H. subst b. rewrite app_nil_r. apply read_end. cbn in Hf. lia.
  - inversion Ft as [|? ? [[Hk1 Hk2] Hv] Ft']; subst. inversion Fp as [|? ? [Pk Pe] Fp']; subst. cbn [fst snd] in *.
    unfold write_tagg in H at 1. cbn [fst snd] in H. destruct (count v) as [n|] eqn:En; [|discriminate].
    destruct (write_many write_tagg l) as [y|] eqn:Ey; [|discriminate]. apply Some_inj in H. subst b.
    destruct fuel as [|fuel]; [lia|]. cbn [read_taggs].
    match goal with |- context [skip 1 ?a] => replace (skip 1 a) with (write_cstring k ++ u32_bytes n ++ v ++ y ++ write_cstring (1 :: end_of_file) ++ u32_bytes 0 ++ rest)
      by (cbn [app skip skipn]; now rewrite <- !app_assoc) end.
    rewrite read_write_cstring by assumption. destruct (count_val _ _ _ En) as [E1 E2].
    rewrite read_u32_app by assumption. rewrite take_exact_app' by lia.
    rewrite (same_bytes_neq k end_of_file) by exact Pe.
    rewrite insert_new.
    + replace (m ++ (k, v) :: l) with ((m ++ [(k, v)]) ++ l) by now rewrite <- app_assoc. apply IH; auto.
      * now rewrite <- app_assoc.
      * rewrite !app_length in Hf. cbn [length] in Hf. lia.
    + rewrite map_app in Hnd. cbn [map fst] in Hnd. apply NoDup_remove_2 in Hnd. intros Hin. apply Hnd. apply in_or_app. now left.
Qed.

Lemma expect_app : forall m rest, expect m (m ++ rest) = Some (tt, rest).
Proof. intros. unfold expect. rewrite take_exact_app, same_bytes_refl. reflexivity. Qed.
Lemma good_lod : forall d, typed_lod d -> plain_lod d -> good write_lod read_lod d.
Proof.
  intros [ma mi res ps ns fs ts] (H1 & H2 & H3 & Hp & Hn & Hf & Ht & Hd) [Pf Pt] w rest H.
  cbn [version_major version_minor resolution points face_normals faces taggs] in *. unfold write_lod in H.
  cbn [version_major version_minor resolution points face_normals faces taggs] in H.
  destruct (count ps) as [np|] eqn:Ep; [|discriminate]. destruct (count ns) as [nn|] eqn:En; [|discriminate]. destruct (count fs) as [nf|] eqn:Ef; [|discriminate].
  destruct (write_many write_point ps) as [bp|] eqn:Wp; [|discriminate]. destruct (write_many write_normal ns) as [bn|] eqn:Wn; [|discriminate].
  destruct (write_many write_face fs) as [bf|] eqn:Wf; [|discriminate]. destruct (write_many write_tagg ts) as [bt|] eqn:Wt; [|discriminate].
  apply Some_inj in H. subst w. unfold read_lod.
  assert (Cp := proj2 (count_val _ _ _ Ep)). assert (Cn := proj2 (count_val _ _ _ En)). assert (Cf := proj2 (count_val _ _ _ Ef)).
  unfold u32 in H1, H2, H3.
  rewrite <- !app_assoc. rewrite expect_app. do 5 rewrite read_u32_app by assumption.
  match goal with |- context [skip 4 ([0; 0; 0; 0] ++ ?a)] => change (skip 4 ([0; 0; 0; 0] ++ a)) with a end.
  rewrite (read_write_count _ write_point read_point ps bp _ np); auto. 2:{ eapply Forall_impl; [|exact Hp]. apply good_point. }
  rewrite (read_write_count _ write_normal read_normal ns bn _ nn); auto. 2:{ eapply Forall_impl; [|exact Hn]. apply good_normal. }
  rewrite (read_write_count _ write_face read_face fs bf _ nf); auto.
  2:{ rewrite Forall_forall in *. intros f Hin. apply good_face; auto. }
  rewrite expect_app. rewrite (read_write_taggs ts Ht Pt [] bt); auto.
  - cbn [app]. rewrite read_u32_app by assumption. reflexivity.
  - rewrite !app_length. lia.
Qed.
Theorem read_write : forall m b rest, typed m -> plain m -> write m = Some b -> read (b ++ rest) = Some m.
Proof.
  intros [v ls] b rest [Hv Hl] P H. cbn [version lods] in *. unfold write in H. cbn [version lods] in H. destruct (count ls) as [n|] eqn:En; [|discriminate].
  destruct (write_many write_lod ls) as [bl|] eqn:El; [|discriminate]. apply Some_inj in H. subst b.
  unfold read. rewrite <- !app_assoc. rewrite expect_app. unfold u32 in Hv. rewrite read_u32_app by assumption.
  assert (Cn := proj2 (count_val _ _ _ En)). rewrite read_u32_app by assumption.
  rewrite (read_write_count _ write_lod read_lod ls bl _ n); auto.
  unfold plain in P. cbn in P. rewrite Forall_forall in *. intros d Hd. apply good_lod; auto.
Qed.

(** ** What is read is in order *)
Definition yields {A} (Q : A -> Prop) (r : bytes -> option (A * bytes)) : Prop :=
  forall l a rest, r l = Some (a, rest) -> is_bytes l -> Q a /\ is_bytes rest.
Lemma u32_yields : yields u32 read_u32.
Proof.
  intros l a rest H Hb. apply read_le_inv in H as [-> H]; auto. apply is_bytes_app in Hb as [_ Hb]. split; auto.
Qed.
Lemma many_yields : forall A (Q : A -> Prop) r n, yields Q r -> yields (fun l => Forall Q l /\ length l = n) (read_many n r).
Proof.
  intros A Q r n Hr. induction n as [|n IH]; intros l a rest H Hb; cbn in H.
  - apply Some_inj in H. injection H as <- <-. repeat split; auto.
  - destruct (r l) as [[a1 l1]|] eqn:E; [|discriminate]. apply Hr in E as [Q1 B1]; auto.
    destruct (read_many n r l1) as [[a2 l2]|] eqn:E2; [|discriminate]. apply IH in E2 as [[Q2 L2] B2]; auto.
    apply Some_inj in H. injection H as <- <-. repeat split; auto. cbn. now rewrite L2.
Qed.
Lemma skipn_bytes : forall n l, is_bytes l -> is_bytes (skipn n l).
Proof. induction n; intros [|b l] H; auto. cbn. apply IHn. now apply is_bytes_cons in H. Qed.
Lemma cstring_yields : forall l s rest, read_cstring l = (s, rest) -> is_bytes l -> string s /\ no_nul s /\ is_bytes rest.
Proof.
  intros l s rest H Hb. unfold read_cstring in H. destruct (until_nul l) as [t r] eqn:E. injection H as <- <-.
  apply until_nul_inv in E as [Hn Hl].
  assert (is_bytes t /\ is_bytes r) as [B1 B2].
  { destruct Hl as [->|[-> ->]]; [apply is_bytes_app in Hb as [B1 B2]; apply is_bytes_cons in B2; tauto | split; auto; constructor]. }
  destruct (utf8_valid t) eqn:E.
  - repeat split; auto.
  - split; [split; [constructor | reflexivity]|]. split; [intros [] | auto].
Qed.
Ltac rd Y := match goal with
  | H : match ?e with _ => _ end = Some _ |- _ =>
      let E := fresh "E" in destruct e as [[? ?]|] eqn:E; [|discriminate]; destruct (Y _ _ _ E ltac:(assumption)) as [? ?]; clear E
  end.
Lemma vertex_yields : yields typed_vertex read_vertex.
Proof. intros l a rest H Hb. unfold read_vertex in H. do 4 rd u32_yields. apply Some_inj in H. injection H as <- <-. repeat split; auto. Qed.
Lemma point_yields : yields typed_point read_point.
Proof. intros l a rest H Hb. unfold read_point in H. do 4 rd u32_yields. apply Some_inj in H. injection H as <- <-. repeat split; auto. Qed.
Lemma normal_yields : yields typed_normal read_normal.
Proof. intros l a rest H Hb. unfold read_normal in H. do 3 rd u32_yields. apply Some_inj in H. injection H as <- <-. repeat split; auto. Qed.
Lemma face_yields : yields (fun f => typed_face f /\ storable_face f /\ plain_face f) read_face.
Proof.
  intros l a rest H Hb. unfold read_face in H. destruct (read_u32 l) as [[n b]|] eqn:E0; [|discriminate]. destruct (u32_yields _ _ _ E0 ltac:(assumption)) as [H0 Hbb]. destruct ((n =? 3) || (n =? 4))%bool eqn:En; [|discriminate].
  destruct (read_many (N.to_nat n) read_vertex b) as [[vs l1]|] eqn:E; [|discriminate].
  destruct (many_yields _ _ _ _ vertex_yields _ _ _ E ltac:(assumption)) as [[Fv Lv] B1].
  destruct (if n =? 3 then read_vertex l1 else Some (Vertex 0 0 0 0, l1)) as [[v l2]|] eqn:E2; [|discriminate].
  assert (B2 : is_bytes l2).
  { destruct (n =? 3); [apply vertex_yields in E2; tauto | apply Some_inj in E2; injection E2 as _ <-; auto]. }
  destruct (read_u32 l2) as [[fl b0]|] eqn:E3; [|discriminate]. destruct (u32_yields _ _ _ E3 ltac:(assumption)) as [H3 Hb3]. destruct (read_cstring b0) as [t l4] eqn:E4. destruct (read_cstring l4) as [m l5] eqn:E5.
  apply cstring_yields in E4 as (S4 & N4 & B4); auto. apply cstring_yields in E5 as (S5 & N5 & B5); auto.
  apply Some_inj in H. injection H as <- <-. unfold typed_face, storable_face, plain_face. cbn. repeat split; auto; try apply S4; try apply S5.
  apply orb_true_iff in En as [En|En]; apply N.eqb_eq in En; subst n; rewrite Lv; auto.
Qed.
Lemma insert_keys : forall m k v, map fst (insert m k v) = map fst m \/ (map fst (insert m k v) = map fst m ++ [k] /\ ~ In k (map fst m)).
Proof.
  induction m as [|[k' v'] m IH]; intros k v; cbn; [right; auto|]. destruct (same_bytes k k') eqn:E; [now left|].
  assert (k <> k') by (intros ->; rewrite same_bytes_refl in E; discriminate).
  cbn [map fst]. destruct (IH k v) as [->|[-> Hn]]; [now left | right]. split; [reflexivity|]. cbn. intuition congruence.
Qed.
Lemma insert_nodup : forall m k v, NoDup (map fst m) -> NoDup (map fst (insert m k v)).
Proof.
  intros m k v H. destruct (insert_keys m k v) as [->|[-> Hn]]; auto.
  apply NoDup_Add with (a := k) (l := map fst m); [|split; auto].
  replace (map fst m) with (map fst m ++ []) at 1 by apply app_nil_r. apply Add_app.
Qed.
Lemma insert_forall : forall (P : bytes * bytes -> Prop) m k v, Forall P m -> P (k, v) -> Forall P (insert m k v).
Proof.
  intros P m k v F H. induction F as [|[k' v'] m Hm F IH]; cbn; auto. destruct (same_bytes k k') eqn:E; constructor; auto.
  apply same_bytes_eq in E. now subst.
Qed.
Definition ok_tagg (t : bytes * bytes) : Prop := (string (fst t) /\ is_bytes (snd t)) /\ fits (snd t) /\ (no_nul (fst t) /\ fst t <> bs "#EndOfFile#").
Lemma taggs_yields : forall fuel m l ts rest, read_taggs fuel m l = Some (ts, rest) -> is_bytes l -> Forall ok_tagg m -> NoDup (map fst m) ->
  Forall ok_tagg ts /\ NoDup (map fst ts) /\ is_bytes rest.
Proof.
  induction fuel as [|fuel IH]; intros m l ts rest H Hb F Hd; [discriminate|]. cbn [read_taggs] in H.
  assert (B0 : is_bytes (skip 1 l)) by now apply skipn_bytes.
  destruct (read_cstring (skip 1 l)) as [k l1] eqn:E1. apply cstring_yields in E1 as (S1 & N1 & B1); auto.
  destruct (read_u32 l1) as [[n b]|] eqn:E2; [|discriminate]. destruct (u32_yields _ _ _ E2 ltac:(assumption)) as [H0 H1]. destruct (take_exact (N.to_nat n) b) as [[v l3]|] eqn:E3; [|discriminate].
  apply take_exact_inv in E3 as [-> L3]. apply is_bytes_app in H1 as [Bv B3].
  destruct (same_bytes k end_of_file) eqn:Ek.
  - apply Some_inj in H. injection H as <- <-. auto.
  - assert (k <> end_of_file) by (intros ->; rewrite same_bytes_refl in Ek; discriminate).
    eapply IH in H; eauto; [|now apply insert_nodup]. apply insert_forall; auto. repeat split; auto; try apply S1. unfold fits. cbn. unfold u32 in H0. lia.
Qed.
Lemma expect_inv : forall m l u rest, expect m l = Some (u, rest) -> l = m ++ rest.
Proof.
  intros m l u rest H. unfold expect in H. destruct (take_exact (length m) l) as [[b r]|] eqn:E; [|discriminate].
  destruct (same_bytes b m) eqn:E2; [|discriminate]. apply same_bytes_eq in E2. subst b. apply Some_inj in H. injection H as _ <-.
  now apply take_exact_inv in E as [-> _].
Qed.
Lemma fits_nat : forall A (l : list A) n, u32 n -> length l = N.to_nat n -> fits l.
Proof. intros A l n H E. unfold fits, u32 in *. rewrite E. lia. Qed.
Lemma lod_yields : yields (fun d => typed_lod d /\ storable_lod d /\ plain_lod d) read_lod.
Proof.
  intros l a rest H Hb. unfold read_lod in H.
  destruct (expect (bs "P3DM") l) as [[u l0]|] eqn:E0; [|discriminate]. apply expect_inv in E0. subst l. apply is_bytes_app in Hb as [_ B0].
  do 5 rd u32_yields.
  match type of H with context [skip 4 ?l] => assert (Bq : is_bytes (skip 4 l)) by (now apply skipn_bytes); generalize dependent (skip 4 l); intros lq H Bq end.
  destruct (read_many _ read_point lq) as [[ps m2]|] eqn:E2; [|discriminate]. destruct (many_yields _ _ _ _ point_yields _ _ _ E2 Bq) as [[F2 L2] B2].
  destruct (read_many _ read_normal m2) as [[ns m3]|] eqn:E3; [|discriminate]. destruct (many_yields _ _ _ _ normal_yields _ _ _ E3 B2) as [[F3 L3] B3].
  destruct (read_many _ read_face m3) as [[fs m4]|] eqn:E4; [|discriminate]. destruct (many_yields _ _ _ _ face_yields _ _ _ E4 B3) as [[F4 L4] B4].
  destruct (expect (bs "TAGG") m4) as [[u' m5]|] eqn:E5; [|discriminate]. apply expect_inv in E5. subst m4. apply is_bytes_app in B4 as [_ B5].
  destruct (read_taggs _ [] m5) as [[ts m6]|] eqn:E6; [|discriminate]. apply taggs_yields in E6 as (F6 & D6 & B6); auto; [|constructor].
  rd u32_yields. apply Some_inj in H. injection H as <- <-. unfold typed_lod, storable_lod, plain_lod. cbn.
  rewrite !Forall_forall in *. repeat split; auto; try (eapply fits_nat; [|eassumption]; assumption); intros; try (apply F2; assumption); try (apply F4; assumption); try (apply F6; assumption).
Qed.
Theorem read_in_order : forall l m, is_bytes l -> read l = Some m -> typed m /\ storable m /\ plain m.
Proof.
  intros l m Hb H. unfold read in H.
  destruct (expect (bs "MLOD") l) as [[u l0]|] eqn:E0; [|discriminate]. apply expect_inv in E0. subst l. apply is_bytes_app in Hb as [_ B0].
  do 2 rd u32_yields. destruct (read_many _ read_lod _) as [[ls lq]|] eqn:E; [|discriminate].
  destruct (many_yields _ _ _ _ lod_yields _ _ _ E ltac:(assumption)) as [[F L] B]. apply Some_inj in H. subst m. unfold typed, storable, plain. cbn.
  rewrite !Forall_forall in *. repeat split; auto; try (eapply fits_nat; [|eassumption]; assumption); intros; now apply F.
Qed.
