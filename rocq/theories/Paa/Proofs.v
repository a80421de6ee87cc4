From Coq Require Import String.
From Verif Require Import Base.Tactics Base.Bytes Base.Ascii Io.Model Paa.Model Paa.Spec.
Local Open Scope N_scope.
Local Open Scope list_scope.

Lemma same_bytes_eq : forall a b, same_bytes a b = true <-> a = b.
Proof.
  induction a as [|x a IH]; intros [|y b]; cbn; split; intros H; try discriminate; auto.
  - apply andb_true_iff in H as [H1 H2]. apply N.eqb_eq in H1. apply IH in H2. now subst.
  - injection H as -> ->. rewrite N.eqb_refl. now apply IH.
Qed.

Definition in_range (p : N * N * N * N) : Prop := red p < 256 /\ green p < 256 /\ blue p < 256 /\ alpha p < 256.
Lemma total_app : forall c a b, total c (a ++ b) = total c a + total c b.
Proof. intros c a b. induction a as [|p a IH]; cbn; [reflexivity|]. unfold total in *. lia. Qed.
Lemma total_bound : forall c ps, (forall p, In p ps -> c p < 256) -> total c ps <= 255 * N.of_nat (length ps).
Proof.
  intros c ps. induction ps as [|p ps IH]; intros H; [cbn; lia|]. cbn [total fold_right length].
  assert (c p < 256) by (apply H; now left). assert (total c ps <= 255 * N.of_nat (length ps)) by (apply IH; intros; apply H; now right).
  unfold total in *. lia.
Qed.
Lemma sum_fold : forall ps a b c d, (forall p, In p ps -> in_range p) ->
  a + 255 * N.of_nat (length ps) < 4294967296 -> b + 255 * N.of_nat (length ps) < 4294967296 ->
  c + 255 * N.of_nat (length ps) < 4294967296 -> d + 255 * N.of_nat (length ps) < 4294967296 ->
  fold_left sum_step ps (a, b, c, d) = (a + total red ps, b + total green ps, c + total blue ps, d + total alpha ps).
Proof.
  induction ps as [|[[[w x] y] z] ps IH]; intros a b c d H Ha Hb Hc Hd.
  - cbn. now rewrite !N.add_0_r.
  - cbn [fold_left]. unfold sum_step at 2. destruct (H (w, x, y, z) (or_introl eq_refl)) as (H1 & H2 & H3 & H4). cbn in H1, H2, H3, H4.
    cbn [length] in *. rewrite !N.mod_small by lia. rewrite IH; try lia; [|intros; apply H; now right].
    unfold total. cbn [fold_right red green blue alpha]. rewrite !N.add_assoc. reflexivity.
Qed.
Lemma max_fold : forall ps a b c d,
  fold_left max_step ps (a, b, c, d) = (N.max a (highest red ps), N.max b (highest green ps), N.max c (highest blue ps), N.max d (highest alpha ps)).
Proof.
  induction ps as [|[[[w x] y] z] ps IH]; intros a b c d.
  - cbn. now rewrite !N.max_0_r.
  - cbn [fold_left]. unfold max_step at 2. rewrite IH. unfold highest. cbn [fold_right red green blue alpha]. now rewrite !N.max_assoc.
Qed.
Lemma highest_bound : forall c ps, (forall p, In p ps -> c p < 256) -> highest c ps < 256.
Proof.
  intros c ps. induction ps as [|p ps IH]; intros H; [reflexivity|]. unfold highest in *. cbn [fold_right].
  assert (c p < 256) by (apply H; now left). assert (fold_right (fun p m => N.max (c p) m) 0 ps < 256) by (apply IH; intros; apply H; now right). lia.
Qed.
Lemma size_area : forall w h, w * h <= compressed_size w h.
Proof. intros w h. unfold compressed_size. assert (w <= 4 * ((w + 3) / 4)) by lia. assert (h <= 4 * ((h + 3) / 4)) by lia. nia. Qed.

Lemma Done_inj : forall A (a b : A), Done a = Done b -> a = b.
Proof. intros A a b H. now injection H. Qed.
Section W.
  Context (compress : image -> bytes).
  Hypothesis Hc : coder compress.
  Definition tag_bytes (name v : bytes) : bytes := bs "GGAT" ++ name ++ u32_bytes (blen v) ++ v.
  Definition offsets : bytes := u32_bytes 110 ++ concat (repeat (u32_bytes 0) 15).
  Definition written_image (i : image) : bytes :=
    u16_bytes (i_width i mod 65536) ++ u16_bytes (i_height i mod 65536) ++ u24_bytes (compressed_size (i_width i) (i_height i)) ++ compress i.
  Definition averages (i : image) : bytes := [average red i; average green i; average blue i; average alpha i].
  Definition maxima (i : image) : bytes := [highest red (pixels i); highest green (pixels i); highest blue (pixels i); highest alpha (pixels i)].

  Lemma average_byte : forall c i, well_formed i -> 0 < i_width i -> 0 < i_height i -> (forall p, in_range p -> c p < 256) -> average c i < 256.
  Proof.
    intros c i (Hw & Hh & Hl & Hp) H1 H2 H. unfold average. rewrite Forall_forall in Hp.
    assert (B := total_bound c (pixels i) (fun p Hin => H p (Hp p Hin))). rewrite Hl in B. apply N.div_lt_upper_bound; nia.
  Qed.
  Lemma write_done : forall i, well_formed i -> 0 < i_width i -> 0 < i_height i -> compressed_size (i_width i) (i_height i) < 16777216 ->
    write compress i = Done (pax_bytes DXT5 ++ tag_bytes (bs "AVGC") (averages i) ++ tag_bytes (bs "CXAM") (maxima i) ++ tag_bytes (bs "SFFO") offsets ++ written_image i).
  Proof.
    intros i W H1 H2 Hs. assert (A := size_area (i_width i) (i_height i)). assert (W' := W). destruct W' as (Hw & Hh & Hl & Hp).
    assert (Ha : i_width i * i_height i <> 0) by nia. rewrite Forall_forall in Hp.
    unfold write. rewrite (N.mod_small (i_width i * i_height i)) by lia.
    rewrite (proj2 (N.eqb_neq _ _) Ha). rewrite sum_fold by (try (intros; apply Hp; assumption); lia). rewrite max_fold.
    rewrite (N.mod_small (compressed_size _ _)) by lia. rewrite (proj2 (N.ltb_lt _ _) Hs). rewrite !N.add_0_l, !N.max_0_l.
    assert (E : forall c, (forall p, in_range p -> c p < 256) -> (total c (pixels i) / (i_width i * i_height i)) mod 256 = average c i).
    { intros c Hc'. apply N.mod_small. now apply average_byte. }
    rewrite (E red), (E green), (E blue), (E alpha) by (intros p (? & ? & ? & ?); assumption).
    reflexivity.
  Qed.
  Lemma write_panics : forall i, well_formed i -> write compress i = Panic <->
    (i_width i * i_height i) mod 4294967296 = 0 \/ 16777216 <= compressed_size (i_width i) (i_height i) mod 4294967296.
  Proof.
    intros i W. unfold write. destruct (_ =? 0) eqn:E; [apply N.eqb_eq in E; tauto|]. apply N.eqb_neq in E.
    destruct (fold_left sum_step _ _) as [[[r g] b] a]. destruct (fold_left max_step _ _) as [[[r' g'] b'] a'].
    destruct (_ <? 16777216) eqn:E2; [apply N.ltb_lt in E2 | apply N.ltb_ge in E2]; split; try tauto; try discriminate. intros [?|?]; [contradiction | lia].
  Qed.

  Lemma read_tag : forall fuel m name v rest, length name = 4%nat -> utf8_valid name = true -> blen v < 4294967296 ->
    read_taggs (S fuel) m (tag_bytes name v ++ rest) = read_taggs fuel (insert m name v) rest.
  Proof.
    intros fuel m name v rest Hn Hu Hv. unfold tag_bytes. cbn [read_taggs]. rewrite <- !app_assoc.
    rewrite (take_exact_app' 4 (bs "GGAT")) by reflexivity. change (same_bytes (bs "GGAT") (bs "GGAT")) with true. cbv iota.
    rewrite take_exact_app' by assumption. rewrite Hu, read_u32_app by assumption.
    rewrite take_exact_app'; [reflexivity|]. unfold blen. now rewrite Nat2N.id.
  Qed.
  Lemma utf8_ascii_is : forall b l, 128 <= b -> b < 194 -> utf8_valid (b :: l) = false.
  Proof. intros b l H1 H2. unfold utf8_valid. cbn [utf8_go]. rewrite (proj2 (N.ltb_ge _ _)) by lia. now rewrite (proj2 (N.ltb_lt _ _)) by lia. Qed.

  (** An image as large as would spell the next tagg's mark cannot be written. *)
  Lemma not_a_tag : forall i, 0 < i_width i -> 0 < i_height i -> compressed_size (i_width i) (i_height i) < 16777216 ->
    same_bytes (firstn 4 (written_image i)) (bs "GGAT") = false.
  Proof.
    intros i H1 H2 Hs. apply not_true_iff_false. intros E. apply same_bytes_eq in E. unfold written_image in E.
    assert (A := size_area (i_width i) (i_height i)). rewrite app_assoc, firstn_app in E.
    assert (L : length (u16_bytes (i_width i mod 65536) ++ u16_bytes (i_height i mod 65536)) = 4%nat) by reflexivity.
    rewrite L, Nat.sub_diag in E. rewrite firstn_all2 in E by (rewrite L; lia). rewrite firstn_O, app_nil_r in E.
    change (bs "GGAT") with (u16_bytes 18247 ++ u16_bytes 21569) in E.
    assert (E1 := f_equal (read_le 2) E). change (read_le 2) with read_u16 in E1.
    rewrite !read_u16_app in E1 by (try reflexivity; apply N.mod_lt; discriminate). apply Some_inj in E1.
    assert (E2 := f_equal snd E1). apply (f_equal fst) in E1. cbn [fst snd] in E1, E2. assert (E3 := f_equal (read_le 2) (f_equal (fun l => l ++ []) E2)). change (read_le 2) with read_u16 in E3.
    rewrite !read_u16_app in E3 by (try reflexivity; apply N.mod_lt; discriminate). apply Some_inj in E3. apply (f_equal fst) in E3. cbn [fst] in E3.
    assert (18247 <= i_width i) by lia. assert (21569 <= i_height i) by lia. nia.
  Qed.
  Theorem read_written : forall i, well_formed i -> 0 < i_width i -> 0 < i_height i -> compressed_size (i_width i) (i_height i) < 16777216 ->
    forall b, write compress i = Done b ->
    read b = Done (Paa DXT5 [(bs "AVGC", averages i); (bs "CXAM", maxima i); (bs "SFFO", offsets)]
                     [Mipmap (i_width i mod 65536) (i_height i mod 65536) (compress i) Bc3]).
  Proof.
    intros i W H1 H2 Hs b Hb. assert (Hg := not_a_tag i H1 H2 Hs). rewrite write_done in Hb by assumption. apply Done_inj in Hb. subst b.
    unfold read. rewrite (take_exact_app' 2 (pax_bytes DXT5)) by reflexivity.
    change (pax_of_bytes (pax_bytes DXT5)) with (Some DXT5). cbv iota.
    set (img := written_image i) in *.
    assert (Lt : forall n v, length n = 4%nat -> (4 <= length (tag_bytes n v))%nat).
    { intros n v Hn. unfold tag_bytes. rewrite !app_length, Hn. cbn. lia. }
    set (lst := tag_bytes (bs "AVGC") _ ++ _).
    assert (exists fuel, S (length lst) = S (S (S (S fuel)))) as [fuel Ef].
    { assert (X1 := Lt (bs "AVGC") (averages i) eq_refl). exists (length lst - 3)%nat. unfold lst. rewrite !app_length. lia. }
    rewrite Ef. unfold lst. clear Ef. clearbody lst.
    rewrite !read_tag by reflexivity.
    change (insert (insert (insert [] (bs "AVGC") (averages i)) (bs "CXAM") (maxima i)) (bs "SFFO") offsets)
      with [(bs "AVGC", averages i); (bs "CXAM", maxima i); (bs "SFFO", offsets)].
    cbn [read_taggs].
    assert (Limg : (4 <= length img)%nat).
    { unfold img, written_image. rewrite !app_length. unfold u16_bytes. rewrite !le_bytes_length. lia. }
    assert (Et : take_exact 4 img = Some (firstn 4 img, skipn 4 img)).
    { rewrite <- (firstn_skipn 4 img) at 1. apply take_exact_app'. rewrite firstn_length. lia. }
    rewrite Et, Hg.
    change (lookup _ (bs "SFFO")) with (Some offsets). cbv iota. change (length offsets / 4)%nat with 16%nat.
    set (all := pax_bytes DXT5 ++ _).
    assert (Hall : skipn (N.to_nat 110) all = img).
    { unfold all. rewrite !app_assoc. set (pre := (((pax_bytes DXT5 ++ _) ++ _) ++ _)).
      assert (Lp : length pre = N.to_nat 110) by reflexivity. rewrite <- Lp. rewrite skipn_app, Nat.sub_diag, skipn_all. reflexivity. }
    assert (Hm : read_mipmap Bc3 img = Some (Mipmap (i_width i mod 65536) (i_height i mod 65536) (compress i) Bc3)).
    { unfold img, written_image, read_mipmap. rewrite <- (app_nil_r (compress i)) at 1.
      rewrite read_u16_app by (apply N.mod_lt; discriminate). rewrite read_u16_app by (apply N.mod_lt; discriminate). rewrite read_u24_app by assumption.
      rewrite take_exact_app'; [reflexivity|]. destruct (Hc i) as [_ L]. unfold compressed_size. lia. }
    clearbody all. unfold offsets. cbn [read_maps]. rewrite read_u32_app by reflexivity. change (110 =? 0) with false. cbv iota. cbn [format_of].
    rewrite Hall, Hm. reflexivity.
  Qed.
End W.
