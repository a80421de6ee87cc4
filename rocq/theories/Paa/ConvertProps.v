(** C108. *)
From Coq Require Import String.
From Verif Require Import Base.Tactics Base.Bytes Base.Ascii Base.Sort Io.Model Paa.Model Paa.Spec Paa.Proofs Paa.Props Paa.ConvertModel Paa.ConvertSpec.
From Verif Require Lzo.Model Lzo.FormatSpec Lzo.Format Lzo.Props.
Local Open Scope N_scope.
Local Open Scope list_scope.

Lemma put_wrote : forall d path content, wrote d (put d path content) path content.
Proof.
  intros d path content. unfold wrote, put. split; [now rewrite eqb_bytes_refl|].
  intros p Hp. destruct (eqb_bytes p path) eqn:E; [apply eqb_bytes_spec in E; contradiction|reflexivity].
Qed.
(** A written picture is shown as one DXT5 map of the size of the picture, not packed, with the coded data. *)
Theorem C108_inspect : forall compress i b, coder compress -> well_formed i -> 0 < i_width i < 32768 -> 0 < i_height i < 65536 ->
  N.of_nat (length (compress i)) < 16777216 -> write compress i = Done b ->
  inspect b = Done (DXT5, [Row (i_width i) (i_height i) (N.of_nat (length (compress i))) Bc3 false]).
Proof.
  intros compress i b Hc W [H1 H1'] [H2 H2'] Hs Hb.
  destruct (C36_paa_roundtrip compress i Hc W H1 H2 Hs) as (b' & p & m & Eb & R & F & M & D & G & Hw & Hh & _).
  rewrite Hb in Eb. assert (b' = b) by congruence. subst b'. destruct (Hw H1') as [C Wd]. unfold inspect. rewrite R, F, M. cbn [map].
  unfold row_of. rewrite Wd, C, G, D, (Hh H2'). reflexivity.
Qed.
(** The rows of any file are those of its maps, in their order; the size is that of the data as stored. *)
Theorem C108_rows : forall file f rows, inspect file = Done (f, rows) ->
  exists p, read file = Done p /\ f = p_format p /\ length rows = length (p_maps p) /\
  forall k m, nth_error (p_maps p) k = Some m -> exists r, nth_error rows k = Some r /\
    r_size r = N.of_nat (length (m_data m)) /\ r_height r = m_height m /\ r_format r = m_format m /\
    (m_width m < 32768 -> r_compressed r = false /\ r_width r = m_width m) /\
    (32768 <= m_width m < 65536 -> r_compressed r = true /\ r_width r = m_width m - 32768).
Proof.
  intros file f rows H. unfold inspect in H. destruct (read file) as [p| |]; try discriminate.
  assert (E1 : f = p_format p) by congruence. assert (E2 : rows = map row_of (p_maps p)) by congruence. subst.
  exists p. repeat split; [apply map_length|]. intros k m Hm. exists (row_of m). split; [now apply map_nth_error|].
  unfold row_of, width, is_compressed. cbn [r_size r_height r_format r_compressed r_width]. repeat split.
  - rewrite N.mod_small by lia. now rewrite N.eqb_refl.
  - rewrite N.mod_small by lia. now rewrite N.eqb_refl.
  - destruct (N.eqb_spec (m_width m mod 32768) (m_width m)); [|reflexivity]. pose proof (N.mod_lt (m_width m) 32768). lia.
  - destruct (N.eqb_spec (m_width m mod 32768) (m_width m)); [|reflexivity]. pose proof (N.mod_lt (m_width m) 32768). lia.
Qed.

Section Convert.
  Context (decode : format -> bytes -> N -> N -> option bytes) (left : bytes -> N -> bytes) (encode : bytes -> picture -> option bytes).
  Notation convert := (convert decode left encode).

  (** A picture written by hemtt is converted to the picture that its coded data stand for, in its size. *)
  Theorem C108_convert : forall compress i b d paa output px content,
    coder compress -> well_formed i -> 0 < i_width i < 32768 -> 0 < i_height i < 65536 ->
    N.of_nat (length (compress i)) < 16777216 -> write compress i = Done b ->
    d paa = Some b -> d output = None -> decode Bc3 (compress i) (i_width i) (i_height i) = Some px ->
    encode output (Picture (i_width i) (i_height i) px) = Some content ->
    exists d', convert d paa output = (Converted, d') /\ wrote d d' output content.
  Proof.
    intros compress i b d paa output px content Hc W [H1 H1'] [H2 H2'] Hs Hb Hp Ho Hd He.
    destruct (C36_paa_roundtrip compress i Hc W H1 H2 Hs) as (b' & p & m & Eb & R & F & M & D & G & Hw & Hh & _).
    rewrite Hb in Eb. assert (b' = b) by congruence. subst b'. destruct (Hw H1') as [C Wd].
    exists (put d output content). split; [|apply put_wrote]. unfold ConvertModel.convert, get_image.
    rewrite Ho, Hp, R, M, C, G, D, Wd, (Hh H2'), Hd, He. reflexivity.
  Qed.

  (** A first map packed with LZO is converted to the picture of what it unpacks to, if that has a byte for each pixel (half of
      one in DXT1). *)
  Theorem C108_packed : forall d paa output file p m rest data px content,
    d paa = Some file -> d output = None -> read file = Done p -> p_maps p = m :: rest ->
    32768 <= m_width m < 65536 -> is_bytes (m_data m) -> N.of_nat (length (m_data m)) < 2 ^ 56 ->
    Lzo.FormatSpec.lzo1x (m_data m) data ->
    N.of_nat (length data) = match m_format m with Bc1 => (m_width m - 32768) * m_height m / 2 | _ => (m_width m - 32768) * m_height m end ->
    decode (m_format m) data (m_width m - 32768) (m_height m) = Some px ->
    encode output (Picture (m_width m - 32768) (m_height m) px) = Some content ->
    exists d', convert d paa output = (Converted, d') /\ wrote d d' output content.
  Proof.
    intros d paa output file p m rest data px content Hp Ho R M Hw Hb Hl Hz Hn Hd He.
    assert (C : is_compressed m = true).
    { unfold is_compressed. destruct (N.eqb_spec (m_width m mod 32768) (m_width m)); [|reflexivity]. pose proof (N.mod_lt (m_width m) 32768). lia. }
    assert (Wd : width m = m_width m - 32768) by (unfold width; now rewrite C).
    assert (Rm : room m = N.of_nat (length data)) by (unfold room; rewrite Wd; cbv zeta; now destruct (m_format m)).
    exists (put d output content). split; [|apply put_wrote]. unfold ConvertModel.convert, get_image, unpacked.
    assert (U : Lzo.Model.decompress (room m) (m_data m) = Lzo.Model.Val (Lzo.Model.Decoded data)).
    { apply Lzo.Format.C57_decompress_follows_format; [exact Hb|exact Hl|]. split; [exact Hz|]. unfold blen. lia. }
    rewrite Ho, Hp, R, M, C, U, Rm, Wd. replace (N.to_nat (N.of_nat (length data)) - length data)%nat with 0%nat by lia.
    cbn [repeat]. rewrite app_nil_r, Hd, He. reflexivity.
  Qed.

  (** That is so for every map of whole blocks whose sides are multiples of four. *)
  Theorem C108_packed_blocks : forall d paa output file p m rest data px content,
    d paa = Some file -> d output = None -> read file = Done p -> p_maps p = m :: rest ->
    32768 <= m_width m < 65536 -> is_bytes (m_data m) -> N.of_nat (length (m_data m)) < 2 ^ 56 ->
    Lzo.FormatSpec.lzo1x (m_data m) data -> m_width m mod 4 = 0 -> m_height m mod 4 = 0 ->
    N.of_nat (length data) = blocks_size (m_format m) (m_width m - 32768) (m_height m) ->
    decode (m_format m) data (m_width m - 32768) (m_height m) = Some px ->
    encode output (Picture (m_width m - 32768) (m_height m) px) = Some content ->
    exists d', convert d paa output = (Converted, d') /\ wrote d d' output content.
  Proof.
    intros d paa output file p m rest data px content Hp Ho R M Hw Hb Hl Hz W4 H4 Hn Hd He.
    eapply C108_packed; eauto. rewrite Hn. unfold blocks_size.
    assert (A : exists a, m_width m - 32768 = 4 * a) by (exists ((m_width m - 32768) / 4); lia). destruct A as [a ->].
    assert (B : exists b, m_height m = 4 * b) by (exists (m_height m / 4); lia). destruct B as [b ->].
    replace ((4 * a + 3) / 4) with a by lia. replace ((4 * b + 3) / 4) with b by lia.
    destruct (m_format m); [|lia|lia]. replace (4 * a * (4 * b)) with (a * b * 8 * 2) by lia. now rewrite N.div_mul by discriminate.
  Qed.

  (** Nothing that is there is changed, whatever happens; another file than [output] never is. *)
  Theorem C108_existing : forall d paa output content, d output = Some content -> convert d paa output = (AlreadyExists, d).
  Proof. intros d paa output content H. unfold ConvertModel.convert. now rewrite H. Qed.
  Theorem C108_kept : forall d paa output e d' path, convert d paa output = (e, d') ->
    d' path = d path \/ (path = output /\ d path = None /\ e = Converted).
  Proof.
    intros d paa output e d' path H. unfold ConvertModel.convert in H.
    destruct (d output) eqn:Ho; [left; congruence|]. destruct (d paa) as [file|]; [|left; congruence].
    destruct (read file) as [p| |]; try (left; congruence). destruct (p_maps p) as [|m ms]; [left; congruence|].
    destruct (get_image decode left m) as [c0|]; [|left; congruence]. destruct (encode output c0) as [c|]; [|left; congruence].
    assert (Ee : e = Converted) by congruence. assert (Ed : d' = put d output c) by congruence. subst. unfold put.
    destruct (eqb_bytes path output) eqn:E; [|now left]. apply eqb_bytes_spec in E. subst. now right.
  Qed.
  (** What cannot be read is an error. *)
  Theorem C108_unreadable : forall d paa output, d output = None ->
    (d paa = None \/ exists file, d paa = Some file /\ read file = Fail) -> convert d paa output = (Failed, d).
  Proof. intros d paa output Ho [H|(f & H & R)]; unfold ConvertModel.convert; rewrite Ho, H; [|rewrite R]; reflexivity. Qed.

  (** Status 0 does not mean that there is a picture: none is made if the encoder fails, or if the path is taken. *)
  Theorem C108_status_refuted : forall d paa output, (forall c, encode output c = None) ->
    fst (convert d paa output) <> Converted /\
    (forall file p m rest c, d paa = Some file -> read file = Done p -> p_maps p = m :: rest -> get_image decode left m = Some c ->
       status (fst (convert d paa output)) = 0 /\ snd (convert d paa output) = d).
  Proof.
    intros d paa output He. unfold ConvertModel.convert. split.
    - destruct (d output); [discriminate|]. destruct (d paa) as [file|]; [|discriminate]. destruct (read file) as [p| |]; try discriminate.
      destruct (p_maps p) as [|m ms]; [discriminate|]. destruct (get_image decode left m) as [c|]; [|discriminate]. rewrite He. discriminate.
    - intros file p m rest c Hp R M G. destruct (d output); [split; reflexivity|]. rewrite Hp, R, M, G, He. split; reflexivity.
  Qed.

  (** A file without maps panics. *)
  Theorem C108_no_maps_refuted : exists file p, is_bytes file /\ read file = Done p /\ p_maps p = [] /\
    forall d paa output, d output = None -> d paa = Some file -> convert d paa output = (Panicked, d).
  Proof.
    exists (pax_bytes DXT5 ++ [0; 0; 0; 0; 0; 0; 0; 0; 0; 0; 0; 0]). eexists.
    split; [apply is_bytesb_spec; vm_compute; reflexivity|]. split; [vm_compute; reflexivity|]. split; [reflexivity|].
    intros d paa output Ho Hp. unfold ConvertModel.convert. rewrite Ho, Hp. reflexivity.
  Qed.
  (** A packed map whose sides are not multiples of four takes more bytes than are provided: it cannot be converted. *)
  Theorem C108_odd_size_refuted : forall d paa output file p m rest data, reads_blocks decode ->
    (forall s n, N.of_nat (length (left s n)) = n) ->
    d paa = Some file -> d output = None -> read file = Done p -> p_maps p = m :: rest ->
    32768 < m_width m < 65536 -> is_bytes (m_data m) -> N.of_nat (length (m_data m)) < 2 ^ 56 ->
    Lzo.FormatSpec.lzo1x (m_data m) data -> m_format m = Bc3 -> 0 < m_height m ->
    (m_width m mod 4 <> 0 \/ m_height m mod 4 <> 0) ->
    N.of_nat (length data) = blocks_size Bc3 (m_width m - 32768) (m_height m) ->
    convert d paa output = (Panicked, d).
  Proof.
    intros d paa output file p m rest data Hr Hlf Hp Ho R M Hw Hb Hl Hz Hf Hh Hodd Hn.
    assert (C : is_compressed m = true).
    { unfold is_compressed. destruct (N.eqb_spec (m_width m mod 32768) (m_width m)); [|reflexivity]. pose proof (N.mod_lt (m_width m) 32768). lia. }
    assert (Wd : width m = m_width m - 32768) by (unfold width; now rewrite C).
    assert (Rm : room m = (m_width m - 32768) * m_height m) by (unfold room; rewrite Wd, Hf; reflexivity).
    assert (Less : (m_width m - 32768) * m_height m < blocks_size Bc3 (m_width m - 32768) (m_height m)).
    { unfold blocks_size. set (w := m_width m - 32768) in *. set (h := m_height m) in *.
      assert (Hw4 : w mod 4 = m_width m mod 4).
      { replace (m_width m) with (w + 8192 * 4) by (unfold w; lia). now rewrite N.mod_add by lia. }
      rewrite <- Hw4 in Hodd.
      assert (A : w <= 4 * ((w + 3) / 4) /\ (w mod 4 <> 0 -> w < 4 * ((w + 3) / 4))) by lia.
      assert (B : h <= 4 * ((h + 3) / 4) /\ (h mod 4 <> 0 -> h < 4 * ((h + 3) / 4))) by lia.
      assert (0 < w) by (unfold w; lia).
      set (a := (w + 3) / 4) in *. set (b := (h + 3) / 4) in *. clearbody a b w h.
      replace (a * b * 16) with ((4 * a) * (4 * b)) by lia. destruct A as [A1 A2], B as [B1 B2]. destruct Hodd as [O|O].
      - apply N.lt_le_trans with (4 * a * h); [apply N.mul_lt_mono_pos_r; auto|apply N.mul_le_mono_l; auto].
      - apply N.lt_le_trans with (w * (4 * b)); [apply N.mul_lt_mono_pos_l; auto|apply N.mul_le_mono_r; auto]. }
    unfold ConvertModel.convert, get_image. rewrite Ho, Hp, R, M, C, Hf, Wd. rewrite Hr; [reflexivity|]. unfold unpacked, blen.
    destruct (Lzo.Model.decompress (room m) (m_data m)) as [[out|e]| |] eqn:U; try (rewrite Hlf, Rm; exact Less).
    apply Lzo.Format.C57_decompress_follows_format in U as [U1 U2]; [|exact Hb|exact Hl]. unfold blen in U2.
    rewrite app_length, repeat_length. rewrite Rm in *. lia.
  Qed.
End Convert.

(** A case: a map of 4 by 4 pixels in DXT5, packed. The stream is one of sixteen literals. *)
Definition packed_file : bytes :=
  pax_bytes DXT5 ++ bs "GGATSFFO" ++ u32_bytes 4 ++ u32_bytes 30 ++ [0; 0; 0; 0; 0; 0; 0; 0; 0; 0; 0; 0] ++
  [4; 128; 4; 0; 20; 0; 0] ++ [33] ++ repeat 9 16 ++ [17; 0; 0].
Definition packed_map : mipmap := Mipmap 32772 4 ([33] ++ repeat 9 16 ++ [17; 0; 0]) Bc3.
Example packed_case : exists p, read packed_file = Done p /\ p_maps p = [packed_map] /\ is_bytes (m_data packed_map) /\
  Lzo.FormatSpec.lzo1x (m_data packed_map) (repeat 9 16) /\ inspect packed_file = Done (DXT5, [Row 4 4 20 Bc3 true]).
Proof.
  eexists. split; [vm_compute; reflexivity|]. split; [reflexivity|]. assert (B : is_bytes (m_data packed_map)) by (apply is_bytesb_spec; vm_compute; reflexivity).
  split; [exact B|]. split; [|vm_compute; reflexivity].
  apply (Lzo.Format.C57_decompress_follows_format 16); [exact B|reflexivity|vm_compute; reflexivity].
Qed.
(** The same with 2 by 4 pixels is one that [C108_odd_size_refuted] speaks of. *)
Definition odd_file : bytes :=
  pax_bytes DXT5 ++ bs "GGATSFFO" ++ u32_bytes 4 ++ u32_bytes 30 ++ [0; 0; 0; 0; 0; 0; 0; 0; 0; 0; 0; 0] ++
  [2; 128; 4; 0; 20; 0; 0] ++ [33] ++ repeat 9 16 ++ [17; 0; 0].
Example odd_case : exists p, read odd_file = Done p /\ p_maps p = [Mipmap 32770 4 (m_data packed_map) Bc3] /\
  N.of_nat (length (repeat 9 16)) = blocks_size Bc3 (32770 - 32768) 4 /\ 32770 mod 4 <> 0.
Proof. eexists. split; [vm_compute; reflexivity|]. repeat split; vm_compute; try reflexivity; discriminate. Qed.
(** The picture of [row] of C36 is shown with its size. *)
Example row_shown : exists b, write coder0 Props.row = Done b /\ inspect b = Done (DXT5, [Row 5 1 32 Bc3 false]).
Proof. eexists. split; vm_compute; reflexivity. Qed.

Print Assumptions C108_inspect.
Print Assumptions C108_rows.
Print Assumptions C108_convert.
Print Assumptions C108_packed.
Print Assumptions C108_packed_blocks.
Print Assumptions C108_existing.
Print Assumptions C108_kept.
Print Assumptions C108_unreadable.
Print Assumptions C108_status_refuted.
Print Assumptions C108_no_maps_refuted.
Print Assumptions C108_odd_size_refuted.
