(** A written script is read back. *)
From Coq Require Import String.
From Verif Require Import Base.Tactics Base.Bytes Base.Ascii Base.Text Io.Spec Lzo.Model Lzo.Props Lzo.Stream Sqf.Ast Sqf.CompileModel Sqf.SerializeModel Sqf.SerializeSpec Sqf.CompileProofs.
Local Open Scope N_scope.
Local Open Scope list_scope.

(** [f] reads [x] from [b]. *)
Definition reads {A} (f : bytes -> option (A * bytes)) (b : bytes) (x : A) : Prop := forall rest, f (b ++ rest) = Some (x, rest).

Lemma Wrote_inj a b : Wrote a = Wrote b -> a = b.
Proof. congruence. Qed.
Ltac winj H := apply Wrote_inj in H; match type of H with _ = ?b => subst b end.
Lemma also_inv r r' b : also r r' = Wrote b -> exists b1 b2, r = Wrote b1 /\ r' = Wrote b2 /\ b = b1 ++ b2.
Proof. unfold also, andthen. destruct r as [b1|]; [|discriminate]. destruct r' as [b2|]; [|discriminate]. intro H. winj H. eauto. Qed.

Section All.
  Context {A B} (f : A -> ser) (g : bytes -> option (B * bytes)) (h : A -> B).
  Lemma times_reads l : forall b, ser_all f l = Wrote b -> (forall x bx, In x l -> f x = Wrote bx -> (length bx <= length b)%nat -> reads g bx (h x)) ->
    reads (times g (length l)) b (map h l).
  Proof.
    induction l as [|x l IH]; intros b H Hx rest.
    - cbn in *. winj H. reflexivity.
    - cbn [ser_all] in H. destruct (also_inv _ _ _ H) as (b1 & b2 & E1 & E2 & ->). cbn [length times map]. rewrite <- app_assoc.
      rewrite (Hx x b1) by (cbn; auto; rewrite ?app_length; lia).
      rewrite (IH b2 E2); [reflexivity|]. intros y by_ Hy Ey L. apply (Hx y); [cbn; auto|auto|rewrite app_length; lia].
  Qed.
  Lemma ser_all_bytes l : forall b, ser_all f l = Wrote b -> (forall x bx, In x l -> f x = Wrote bx -> is_bytes bx) -> is_bytes b.
  Proof.
    induction l as [|x l IH]; intros b H Hx; cbn [ser_all] in H; [winj H; constructor|].
    destruct (also_inv _ _ _ H) as (b1 & b2 & E1 & E2 & ->). apply is_bytes_app. split; [eapply Hx; cbn; eauto|apply IH; auto; intros; eapply Hx; cbn; eauto].
  Qed.
End All.

(** ** Characters *)
Lemma utf8_char_bytes c : is_scalar c -> is_bytes (utf8_char c).
Proof.
  unfold is_scalar, utf8_char. intro H. repeat match goal with |- context[if ?x <? ?y then _ else _] => destruct (N.ltb_spec x y) end;
    repeat constructor; lia.
Qed.
Lemma utf8_bytes s : is_text s -> is_bytes (utf8 s).
Proof. induction 1 as [|c s Hc _ IH]; [constructor|]. cbn [utf8 flat_map]. apply is_bytes_app. split; [now apply utf8_char_bytes|exact IH]. Qed.
Lemma chars_of_char c r : is_scalar c -> chars_of (utf8_char c ++ r) = option_map (cons c) (chars_of r).
Proof.
  unfold is_scalar, utf8_char. intro H.
  destruct (N.ltb_spec c 128); [|destruct (N.ltb_spec c 2048); [|destruct (N.ltb_spec c 65536)]]; cbn [app chars_of].
  - destruct (N.ltb_spec c 128); [reflexivity|lia].
  - destruct (N.ltb_spec (192 + c / 64) 128); [lia|]. destruct (N.ltb_spec (192 + c / 64) 224); [|lia].
    replace ((192 + c / 64 - 192) * 64 + (128 + c mod 64 - 128)) with c by lia. reflexivity.
  - destruct (N.ltb_spec (224 + c / 4096) 128); [lia|]. destruct (N.ltb_spec (224 + c / 4096) 224); [lia|]. destruct (N.ltb_spec (224 + c / 4096) 240); [|lia].
    replace ((224 + c / 4096 - 224) * 4096 + (128 + c / 64 mod 64 - 128) * 64 + (128 + c mod 64 - 128)) with c by lia. reflexivity.
  - destruct (N.ltb_spec (240 + c / 262144) 128); [lia|]. destruct (N.ltb_spec (240 + c / 262144) 224); [lia|]. destruct (N.ltb_spec (240 + c / 262144) 240); [lia|].
    replace ((240 + c / 262144 - 240) * 262144 + (128 + c / 4096 mod 64 - 128) * 4096 + (128 + c / 64 mod 64 - 128) * 64 + (128 + c mod 64 - 128)) with c by lia. reflexivity.
Qed.
Lemma chars_of_utf8 s : is_text s -> chars_of (utf8 s) = Some s.
Proof. induction 1 as [|c s Hc _ IH]; [reflexivity|]. cbn [utf8 flat_map]. rewrite chars_of_char by exact Hc. fold (utf8 s). now rewrite IH. Qed.

(** ** Parts *)
Lemma string_reads s b : is_text s -> ser_string s = Wrote b -> reads read_string b s.
Proof.
  unfold ser_string. cbv zeta. intros Hs H rest. destruct (N.ltb_spec (blen (utf8 s)) (2 ^ 24)); [|discriminate]. winj H.
  unfold read_string. rewrite <- app_assoc, read_u24_app by exact H0. unfold blen. rewrite Nnat.Nat2N.id, take_exact_app, chars_of_utf8 by exact Hs. reflexivity.
Qed.
Lemma string_bytes s b : is_text s -> ser_string s = Wrote b -> is_bytes b.
Proof.
  unfold ser_string. cbv zeta. intros Hs H. destruct (_ <? _); [|discriminate]. winj H. apply is_bytes_app.
  split; [apply le_bytes_is_bytes|now apply utf8_bytes].
Qed.
Lemma info_reads si : typed_info si -> reads read_info (ser_info si) si.
Proof.
  intros (H1 & H2 & H3) rest. unfold read_info, ser_info. rewrite <- !app_assoc, read_u32_app by exact H1. cbn [app]. rewrite read_u8_cons, read_u16_app by exact H3.
  now destruct si.
Qed.
Lemma info_bytes si : typed_info si -> is_bytes (ser_info si).
Proof.
  intros (H1 & H2 & H3). unfold ser_info. apply is_bytes_app. split; [apply le_bytes_is_bytes|]. cbn [app]. apply is_bytes_cons. split; [exact H2|apply le_bytes_is_bytes].
Qed.
Lemma lor_top l : l < 2 ^ 31 -> N.lor l 0x80000000 = l + 2 ^ 31.
Proof.
  intro H. change 0x80000000 with (2 ^ 31). assert (N.land l (2 ^ 31) = 0) as E.
  { apply N.bits_inj. intro m. rewrite N.land_spec, N.bits_0, N.pow2_bits_eqb. destruct (N.eqb_spec 31 m) as [<-|]; [|apply Bool.andb_false_r].
    rewrite Bool.andb_true_r. destruct (N.eq_dec l 0) as [->|Hn]; [reflexivity|]. apply N.bits_above_log2. apply N.log2_lt_pow2; lia. }
  rewrite <- N.lxor_lor by exact E. now rewrite N.add_nocarry_lxor.
Qed.
Lemma u64_split i rest : i < 2 ^ 31 -> u64_bytes i ++ rest = u32_bytes i ++ u32_bytes 0 ++ rest.
Proof.
  intro H. unfold u64_bytes, u32_bytes. cbn [le_bytes app]. assert (i / 256 / 256 / 256 / 256 = 0) as -> by lia. reflexivity.
Qed.
Lemma pointer_reads q : typed_pointer q -> reads read_pointer (ser_pointer q) q.
Proof.
  intros H rest. unfold read_pointer. destruct q as [i|o l]; cbn [ser_pointer typed_pointer] in *.
  - change 0x7fffffff with (N.ones 31). rewrite N.land_ones, N.mod_small by exact H. rewrite u64_split by exact H. rewrite read_u32_app by lia. rewrite read_u32_app by lia.
    change (0 <? 2 ^ 31) with true. cbv iota. do 2 f_equal. rewrite N.mul_0_r, N.add_0_r. reflexivity.
  - destruct H as [H1 H2]. rewrite lor_top by exact H2. rewrite <- app_assoc, read_u32_app by exact H1. rewrite read_u32_app by lia.
    destruct (N.ltb_spec (l + 2 ^ 31) (2 ^ 31)); [lia|]. do 2 f_equal. rewrite N.add_sub. reflexivity.
Qed.
Lemma pointer_bytes q : is_bytes (ser_pointer q).
Proof. destruct q; cbn [ser_pointer]; rewrite ?is_bytes_app; repeat split; apply le_bytes_is_bytes. Qed.

Section Constants.
  Context (c : compiled).
  Lemma named_reads tag f x si b : x < 2 ^ 16 -> typed_info si -> ser_named c tag x si = Wrote b -> exists b', b = tag :: b' /\ reads (read_named f) b' (f x si).
  Proof.
    intros Hx Hs H. unfold ser_named in H. destruct (also_inv _ _ _ H) as (b1 & b2 & E1 & E2 & ->). winj E1.
    unfold has_name in E2. destruct (_ <=? x); [discriminate|]. winj E2. exists (ser_info si ++ u16_bytes x). split; [reflexivity|].
    intro rest. unfold read_named. rewrite <- app_assoc, info_reads by exact Hs. rewrite read_u16_app by exact Hx. reflexivity.
  Qed.
  Lemma instr_reads i b : typed_instr i -> ser_instr c i = Wrote b -> reads read_instr b i.
  Proof.
    intros Ht H rest. unfold read_instr. destruct i; cbn [ser_instr typed_instr] in *;
      try (destruct Ht as [H1 H2]; match type of H with ser_named _ _ _ _ = _ => eapply named_reads in H; [|exact H1|exact H2]; destruct H as (b' & -> & Hr); cbn [app]; rewrite read_u8_cons; cbn [N.eqb Pos.eqb]; apply Hr end).
    - winj H. reflexivity.
    - destruct (also_inv _ _ _ H) as (b1 & b2 & E1 & E2 & ->). winj E1. unfold has_constant in E2. destruct (_ <=? _); [discriminate|].
      winj E2. cbn [app]. rewrite read_u8_cons. cbn [N.eqb Pos.eqb]. rewrite read_u16_app by exact Ht. reflexivity.
    - destruct Ht as [H1 H2]. winj H. cbn [app]. rewrite read_u8_cons. cbn [N.eqb Pos.eqb]. unfold read_named.
      rewrite <- app_assoc, info_reads by exact H2. rewrite read_u16_app by exact H1. reflexivity.
  Qed.
  Lemma instr_bytes i b : typed_instr i -> ser_instr c i = Wrote b -> is_bytes b.
  Proof.
    assert (forall tag x si b, tag < 256 -> typed_info si -> ser_named c tag x si = Wrote b -> is_bytes b) as A.
    { intros tag x si b0 Ht Hs H. unfold ser_named in H. destruct (also_inv _ _ _ H) as (b1 & b2 & E1 & E2 & ->). winj E1.
      unfold has_name in E2. destruct (_ <=? x); [discriminate|]. winj E2. cbn [app]. apply is_bytes_cons. split; [exact Ht|].
      apply is_bytes_app. split; [now apply info_bytes|apply le_bytes_is_bytes]. }
    intros Ht H. destruct i; cbn [ser_instr typed_instr] in *; try (eapply A; [|apply Ht|exact H]; reflexivity).
    - winj H. repeat constructor.
    - destruct (also_inv _ _ _ H) as (b1 & b2 & E1 & E2 & ->). winj E1. unfold has_constant in E2. destruct (_ <=? _); [discriminate|].
      winj E2. cbn [app]. apply is_bytes_cons. split; [reflexivity|apply le_bytes_is_bytes].
    - winj H. apply is_bytes_cons. split; [reflexivity|]. apply is_bytes_app. split; [now apply info_bytes|apply le_bytes_is_bytes].
  Qed.

  Lemma constant_reads : forall k b, typed k -> ser_constant c k = Wrote b -> forall depth, (length b <= depth)%nat -> reads (read_constant depth) b (plain k).
  Proof.
    induction k using constant_ind'; intros b0 Ht Hb depth Hd rest; inversion Ht; subst; cbn [ser_constant] in Hb.
    - destruct (also_inv _ _ _ Hb) as (b1 & b2 & E1 & E2 & ->). winj E1. cbn [app length] in *. destruct depth as [|depth]; [lia|].
      cbn [read_constant app]. rewrite read_u8_cons. cbn [N.eqb]. unfold ser_code in E2. destruct (N.ltb_spec (N.of_nat (length c0)) (2 ^ 32)); [|discriminate].
      destruct (also_inv _ _ _ E2) as (b3 & b4 & E3 & E4 & ->). winj E3. rewrite <- !app_assoc, pointer_reads by assumption. rewrite read_u32_app by assumption.
      rewrite Nnat.Nat2N.id. rewrite (times_reads (ser_instr c) read_instr (fun x => x) c0 b4 E4).
      + rewrite map_id. reflexivity.
      + intros x bx Hin Ex _. apply instr_reads; [|exact Ex]. rewrite Forall_forall in *. auto.
    - destruct (also_inv _ _ _ Hb) as (b1 & b2 & E1 & E2 & ->). winj E1. cbn [app length] in *. destruct depth as [|depth]; [lia|].
      cbn [read_constant app]. rewrite read_u8_cons. cbn [N.eqb Pos.eqb]. rewrite (string_reads s b2) by assumption. reflexivity.
    - winj Hb. destruct depth as [|depth]; [cbn in Hd; lia|]. cbn [read_constant app]. rewrite read_u8_cons. cbn [N.eqb Pos.eqb]. rewrite read_u32_app by assumption. reflexivity.
    - winj Hb. destruct depth as [|depth]; [cbn in Hd; lia|]. destruct b; reflexivity.
    - destruct (N.ltb_spec (N.of_nat (length l)) (2 ^ 32)); [|discriminate]. destruct (also_inv _ _ _ Hb) as (b1 & b2 & E1 & E2 & ->). winj E1.
      rewrite app_length in Hd. cbn [length] in Hd. destruct depth as [|depth]; [lia|]. cbn [read_constant app]. rewrite read_u8_cons. cbn [N.eqb Pos.eqb].
      rewrite <- app_assoc, read_u32_app by assumption. rewrite Nnat.Nat2N.id, (times_reads (ser_constant c) (read_constant depth) plain l b2 E2); [reflexivity|].
      intros x bx Hin Ex Lx. rewrite Forall_forall in *. apply H; auto. lia.
    - destruct (N.ltb_spec (N.of_nat (length l)) (2 ^ 32)); [|discriminate]. destruct (also_inv _ _ _ Hb) as (b1 & b2 & E1 & E2 & ->). winj E1.
      rewrite app_length in Hd. cbn [length] in Hd. destruct depth as [|depth]; [lia|]. cbn [read_constant app]. rewrite read_u8_cons. cbn [N.eqb Pos.eqb].
      rewrite <- app_assoc, read_u32_app by assumption. rewrite Nnat.Nat2N.id, (times_reads (ser_constant c) (read_constant depth) plain l b2 E2); [reflexivity|].
      intros y bx Hin Ex Lx. rewrite Forall_forall in *. apply H; auto. lia.
    - destruct (also_inv _ _ _ Hb) as (b1 & b2 & E1 & E2 & ->). winj E1. cbn [app length] in *. destruct depth as [|depth]; [lia|].
      cbn [read_constant app]. rewrite read_u8_cons. cbn [N.eqb Pos.eqb]. rewrite (string_reads x b2) by assumption. reflexivity.
  Qed.
  Lemma constant_bytes : forall k b, typed k -> ser_constant c k = Wrote b -> is_bytes b.
  Proof.
    induction k using constant_ind'; intros b0 Ht Hb; inversion Ht; subst; cbn [ser_constant] in Hb.
    - destruct (also_inv _ _ _ Hb) as (b1 & b2 & E1 & E2 & ->). winj E1. cbn [app]. apply is_bytes_cons. split; [reflexivity|].
      unfold ser_code in E2. destruct (_ <? _); [|discriminate]. destruct (also_inv _ _ _ E2) as (b3 & b4 & E3 & E4 & ->). winj E3.
      rewrite !is_bytes_app. repeat split; [apply pointer_bytes|apply le_bytes_is_bytes|]. eapply ser_all_bytes; [exact E4|].
      intros x bx Hin Ex. eapply instr_bytes; [|exact Ex]. rewrite Forall_forall in *. auto.
    - destruct (also_inv _ _ _ Hb) as (b1 & b2 & E1 & E2 & ->). winj E1. cbn [app]. apply is_bytes_cons. split; [reflexivity|]. eapply string_bytes; eauto.
    - winj Hb. apply is_bytes_cons. split; [reflexivity|apply le_bytes_is_bytes].
    - winj Hb. destruct b; repeat constructor.
    - destruct (_ <? _); [|discriminate]. destruct (also_inv _ _ _ Hb) as (b1 & b2 & E1 & E2 & ->). winj E1.
      apply is_bytes_app. split; [apply is_bytes_cons; split; [reflexivity|apply le_bytes_is_bytes]|]. eapply ser_all_bytes; [exact E2|].
      intros x bx Hin Ex. rewrite Forall_forall in *. eauto.
    - destruct (_ <? _); [|discriminate]. destruct (also_inv _ _ _ Hb) as (b1 & b2 & E1 & E2 & ->). winj E1.
      apply is_bytes_app. split; [apply is_bytes_cons; split; [reflexivity|apply le_bytes_is_bytes]|]. eapply ser_all_bytes; [exact E2|].
      intros y bx Hin Ex. rewrite Forall_forall in *. eauto.
    - destruct (also_inv _ _ _ Hb) as (b1 & b2 & E1 & E2 & ->). winj E1. cbn [app]. apply is_bytes_cons. split; [reflexivity|]. eapply string_bytes; eauto.
  Qed.

  Lemma list_reads {A B} (f : A -> ser) (g : bytes -> option (B * bytes)) (h : A -> B) l b : ser_list f l = Wrote b ->
    (forall x bx, In x l -> f x = Wrote bx -> (length bx <= length b)%nat -> reads g bx (h x)) -> reads (read_list g) b (map h l).
  Proof.
    unfold ser_list. intros H Hx rest. destruct (N.ltb_spec (N.of_nat (length l)) (2 ^ 16)); [|discriminate]. destruct (also_inv _ _ _ H) as (b1 & b2 & E1 & E2 & ->).
    winj E1. unfold read_list. rewrite <- app_assoc, read_u16_app by assumption. rewrite Nnat.Nat2N.id. apply (times_reads f g h l b2 E2).
    intros x bx Hin Ex Lx. apply Hx; auto. rewrite app_length. lia.
  Qed.
  Lemma list_bytes {A} (f : A -> ser) l b : ser_list f l = Wrote b -> (forall x bx, In x l -> f x = Wrote bx -> is_bytes bx) -> is_bytes b.
  Proof.
    unfold ser_list. intros H Hx. destruct (_ <? _); [|discriminate]. destruct (also_inv _ _ _ H) as (b1 & b2 & E1 & E2 & ->). winj E1.
    apply is_bytes_app. split; [apply le_bytes_is_bytes|eapply ser_all_bytes; eauto].
  Qed.

  (** ** Compressed blocks *)
  Lemma first_unpacked_finds size packed d rest : decompress size packed = Val (Decoded d) ->
    forall k n more, (n + k = length packed)%nat -> (k <= more)%nat -> first_unpacked size n more (packed ++ rest) = Some (d, rest).
  Proof.
    intros Hd. induction k as [|k IH]; intros n more Hn Hm.
    - assert (E : firstn n (packed ++ rest) = packed) by (rewrite firstn_app; replace (n - length packed)%nat with O by lia; rewrite firstn_all2 by lia; cbn [firstn]; apply app_nil_r).
      assert (E' : skipn n (packed ++ rest) = rest) by (rewrite skipn_app; replace (n - length packed)%nat with O by lia; rewrite skipn_all2 by lia; reflexivity).
      destruct more; cbn [first_unpacked]; rewrite E, Hd, E'; reflexivity.
    - destruct more as [|more]; [lia|]. cbn [first_unpacked].
      assert (E : firstn n (packed ++ rest) = firstn n packed) by (rewrite firstn_app; replace (n - length packed)%nat with O by lia; cbn [firstn]; apply app_nil_r).
      rewrite E. destruct (decompress size (firstn n packed)) as [[d'|]| |] eqn:Ed; try (apply IH; lia).
      exfalso. pose proof (C52_streams_end_themselves size (firstn n packed) d' (skipn n packed) Ed) as H. rewrite firstn_skipn, Hd in H.
      discriminate H. intro Q. apply (f_equal (@length N)) in Q. rewrite skipn_length in Q. cbn in Q. lia.
  Qed.
  Lemma compressed_reads r b : ser_compressed r = Wrote b -> (forall d, r = Wrote d -> is_bytes d) -> exists d, r = Wrote d /\ reads read_compressed b d.
  Proof.
    unfold ser_compressed. intros H Hb. destruct r as [d|]; [|discriminate]. cbn [andthen] in H. exists d. split; [reflexivity|].
    destruct (N.ltb_spec (blen d) (2 ^ 32)); [|discriminate]. specialize (Hb d eq_refl).
    destruct (C16_decompress_inverts_compress d (worst_compress (blen d)) (blen d)) as (packed & Ep & Ed); [assumption|lia|lia|lia|].
    rewrite Ep in H. winj H. intro rest. unfold read_compressed. rewrite <- !app_assoc, read_u32_app by lia. cbn [app]. rewrite read_u8_cons. cbn [N.eqb Pos.eqb].
    apply (first_unpacked_finds _ _ _ _ Ed (length packed)); [reflexivity|]. rewrite app_length. lia.
  Qed.
End Constants.

(** ** The whole file *)
Lemma serialize_reads c b : typed_script c -> serialize c = Wrote b -> read_sqfc b = Some (as_written c).
Proof.
  intros (He & Hk & Hn & Hf) H. unfold serialize in H.
  destruct (also_inv _ _ _ H) as (b1 & r1 & E1 & H1 & ->). destruct (also_inv _ _ _ H1) as (b2 & r2 & E2 & H2 & ->).
  destruct (also_inv _ _ _ H2) as (b3 & r3 & E3 & H3 & ->). destruct (also_inv _ _ _ H3) as (b4 & r4 & E4 & H4 & ->).
  destruct (also_inv _ _ _ H4) as (b5 & r5 & E5 & H5 & ->). destruct (also_inv _ _ _ H5) as (b6 & b7 & E6 & E7 & ->).
  clear H H1 H2 H3 H4 H5. winj E1. winj E3. winj E5. winj E7.
  rewrite Forall_forall in Hk, Hn, Hf.
  destruct (compressed_reads _ _ E2) as (d2 & D2 & R2). { intros d Hd. eapply list_bytes; [exact Hd|]. intros. eapply string_bytes; eauto. }
  destruct (compressed_reads _ _ E4) as (d4 & D4 & R4). { intros d Hd. eapply list_bytes; [exact Hd|]. intros. eapply constant_bytes; eauto. }
  unfold read_sqfc. rewrite <- !app_assoc. rewrite read_u32_app by lia. change (negb (1 =? 1)) with false. cbv iota. cbn [app expect N.eqb Pos.eqb].
  rewrite R2. pose proof (list_reads ser_string read_string (fun x => x) _ _ D2 ltac:(intros; apply string_reads; auto)) as L2.
  specialize (L2 []). rewrite app_nil_r in L2. rewrite L2. cbn [whole expect N.eqb Pos.eqb].
  rewrite R4. pose proof (list_reads (ser_constant c) (read_constant (length d4)) plain _ _ D4 ltac:(intros; eapply constant_reads; eauto)) as L4.
  specialize (L4 []). rewrite app_nil_r in L4. rewrite L4. cbn [whole expect N.eqb Pos.eqb].
  rewrite (list_reads ser_string read_string (fun x => x) _ _ E6 ltac:(intros; apply string_reads; auto)). cbn [expect N.eqb Pos.eqb].
  rewrite <- (app_nil_r (u64_bytes _)). rewrite read_u64_app by lia. rewrite !map_id. reflexivity.
Qed.
