(** C36. *)
From Coq Require Import String.
From Verif Require Import Base.Tactics Base.Bytes Base.Ascii Io.Model Paa.Model Paa.Spec Paa.Proofs.
Local Open Scope N_scope.
Local Open Scope list_scope.

(** An image that is not empty and whose coded data is shorter than 2^24 bytes is written, and reads back as one DXT5 map
    with the coded data; its width and height are those of the image if they are below 2^15 and 2^16. The average and
    maximal colour are those of the pixels. *)
Theorem C36_paa_roundtrip : forall compress i, coder compress -> well_formed i -> 0 < i_width i -> 0 < i_height i ->
  N.of_nat (length (compress i)) < 16777216 ->
  exists b p m, write compress i = Done b /\ read b = Done p /\ p_format p = DXT5 /\ p_maps p = [m] /\ m_data m = compress i /\ m_format m = Bc3 /\
    (i_width i < 32768 -> is_compressed m = false /\ width m = i_width i) /\ (i_height i < 65536 -> m_height m = i_height i) /\
    lookup (p_taggs p) (bs "AVGC") = Some [average red i; average green i; average blue i; average alpha i] /\
    lookup (p_taggs p) (bs "CXAM") = Some [highest red (pixels i); highest green (pixels i); highest blue (pixels i); highest alpha (pixels i)].
Proof.
  intros compress i Hc W H1 H2 Hs. assert (Hs' : compressed_size (i_width i) (i_height i) < 16777216) by (destruct (Hc i) as [_ L]; unfold compressed_size; lia).
  eexists _, _, _. split; [now apply write_done|]. split; [eapply read_written; eauto; now apply write_done|].
  split; [reflexivity|]. split; [reflexivity|]. cbn [m_data m_format m_height width m_width]. split; [reflexivity|]. split; [reflexivity|]. split.
  { intros Hw. unfold width, is_compressed. cbn [m_width]. rewrite (N.mod_small (i_width i) 65536) by lia. rewrite N.mod_small by lia. rewrite N.eqb_refl. auto. }
  split; [intros; now rewrite N.mod_small by lia|]. split; reflexivity.
Qed.

(** Otherwise writing panics: exactly for images without pixels and for coded data of 2^24 bytes or more (below 2^32 bytes
    and 2^32 pixels, where the sizes wrap around). 4096 by 4096 is the first square that cannot be written. *)
Theorem C36_write_panics_exactly : forall compress i, coder compress -> well_formed i -> i_width i * i_height i < 4294967296 ->
  N.of_nat (length (compress i)) < 4294967296 ->
  (write compress i = Panic <-> i_width i = 0 \/ i_height i = 0 \/ 16777216 <= N.of_nat (length (compress i))).
Proof.
  intros compress i Hc W Ha Hs. rewrite write_panics by auto. destruct (Hc i) as [_ L]. unfold compressed_size. rewrite <- L.
  rewrite !N.mod_small by lia. rewrite N.eq_mul_0. tauto.
Qed.
Definition plain (w h : N) : image := Image w h (repeat (1, 2, 3, 255) (N.to_nat (w * h))).
Lemma plain_well_formed : forall w h, w < 4294967296 -> h < 4294967296 -> well_formed (plain w h).
Proof.
  intros w h Hw Hh. unfold well_formed, plain. cbn [i_width i_height pixels]. repeat split; auto.
  - rewrite repeat_length. lia.
  - apply Forall_forall. intros p Hp. apply repeat_spec in Hp. subst p. cbn. lia.
Qed.
Theorem C36_4096_square_refuted : forall compress, coder compress -> exists i, well_formed i /\ i_width i = 4096 /\ i_height i = 4096 /\ write compress i = Panic.
Proof.
  intros compress Hc. exists (plain 4096 4096). split; [now apply plain_well_formed|]. split; [reflexivity|]. split; [reflexivity|].
  apply write_panics; [now apply plain_well_formed|]. right. cbn [plain i_width i_height]. discriminate.
Qed.
(** A wider image is read as a narrower, LZO compressed one. *)
Theorem C36_wide_image_refuted : forall compress, coder compress -> exists i b p m, well_formed i /\ i_width i = 32770 /\ i_height i = 4 /\
  write compress i = Done b /\ read b = Done p /\ p_maps p = [m] /\ is_compressed m = true /\ width m = 2.
Proof.
  intros compress Hc. exists (plain 32770 4).
  assert (W : well_formed (plain 32770 4)) by now apply plain_well_formed.
  assert (S : compressed_size (i_width (plain 32770 4)) (i_height (plain 32770 4)) < 16777216) by reflexivity.
  assert (Z1 : 0 < i_width (plain 32770 4)) by reflexivity. assert (Z2 : 0 < i_height (plain 32770 4)) by reflexivity.
  pose proof (write_done compress _ W Z1 Z2 S) as D. pose proof (read_written compress Hc _ W Z1 Z2 S _ D) as R.
  eexists _, _, _. split; [exact W|]. split; [reflexivity|]. split; [reflexivity|]. split; [exact D|]. split; [exact R|].
  split; [reflexivity|]. split; reflexivity.
Qed.

(** Reading never panics on the DXT1, DXT3 and DXT5 formats; it does on every file of another format with a map. *)
Lemma read_maps_panic : forall all p n offs, read_maps all p n offs = Panic -> format_of p = None.
Proof.
  intros all p n. induction n as [|n IH]; intros offs H; [discriminate|]. cbn [read_maps] in H.
  destruct (read_u32 offs) as [[seek offs']|]; [|discriminate]. destruct (seek =? 0); [eauto|].
  destruct (format_of p); [|reflexivity]. destruct (read_mipmap _ _); [|discriminate].
  destruct (read_maps all p n offs') eqn:E; try discriminate. eauto.
Qed.
Theorem C36_read_panics_only_on_other_formats : forall all, read all = Panic ->
  exists p rest, all = pax_bytes p ++ rest /\ p <> DXT1 /\ p <> DXT3 /\ p <> DXT5.
Proof.
  intros all H. unfold read in H. destruct (take_exact 2 all) as [[b l]|] eqn:E; [|discriminate].
  apply take_exact_inv in E as [-> _]. destruct (pax_of_bytes b) as [p|] eqn:Ep; [|discriminate].
  destruct (read_taggs _ _ _) as [m|]; [|discriminate]. destruct (lookup m _) as [offs|]; [|discriminate].
  destruct (read_maps _ _ _ _) eqn:Em; try discriminate. apply read_maps_panic in Em.
  exists p, l. split.
  - f_equal. unfold pax_of_bytes in Ep. destruct b as [|x [|y [|]]]; try discriminate.
    clear H Em. repeat match type of Ep with (if ?c then _ else _) = _ => destruct c eqn:?E;
      [apply andb_true_iff in E as [E1 E2]; apply N.eqb_eq in E1; apply N.eqb_eq in E2; subst x y; apply Some_inj in Ep; subst p; reflexivity|clear E] end. discriminate Ep.
  - repeat split; intros ->; discriminate Em.
Qed.
Theorem C36_other_format_refuted : exists all, is_bytes all /\ read all = Panic.
Proof.
  exists (pax_bytes RGBA4 ++ bs "GGATSFFO" ++ u32_bytes 4 ++ u32_bytes 26 ++ [0; 0; 0; 0] ++ [0; 0; 0; 0; 0; 0; 0]).
  split; [apply is_bytesb_spec; vm_compute; reflexivity | vm_compute; reflexivity].
Qed.

(** A case: five pixels in a row take two blocks. *)
Definition coder0 (i : image) : bytes := repeat 7 (N.to_nat (((i_width i + 3) / 4) * ((i_height i + 3) / 4) * 16)).
Example coder0_ok : coder coder0.
Proof.
  intros i. unfold coder0. split; [apply Forall_forall; intros x Hx; apply repeat_spec in Hx; subst; reflexivity|]. rewrite repeat_length. lia.
Qed.
Definition row : image := Image 5 1 [(1, 2, 3, 4); (255, 0, 0, 255); (1, 1, 1, 1); (0, 9, 0, 9); (3, 3, 3, 3)].
Example row_ok : well_formed row /\ 0 < i_width row /\ 0 < i_height row /\ N.of_nat (length (coder0 row)) = 32.
Proof. repeat split; try reflexivity. repeat (apply Forall_cons || apply Forall_nil); repeat split; reflexivity. Qed.
Example row_back : exists b p, write coder0 row = Done b /\ read b = Done p /\ lookup (p_taggs p) (bs "AVGC") = Some [52; 3; 1; 54].
Proof. eexists _, _. split; [vm_compute; reflexivity|]. split; vm_compute; reflexivity. Qed.

Print Assumptions C36_paa_roundtrip.
Print Assumptions C36_write_panics_exactly.
Print Assumptions C36_4096_square_refuted.
Print Assumptions C36_wide_image_refuted.
Print Assumptions C36_read_panics_only_on_other_formats.
Print Assumptions C36_other_format_refuted.
