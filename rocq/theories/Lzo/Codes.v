(** The byte codes: what the compressor writes is what the decompressor reads. *)
From Verif Require Import Base.Tactics Base.Bytes Lzo.Model Lzo.Safety.
Local Open Scope N_scope.

Lemma below (P : N -> bool) n : forallb P (map N.of_nat (seq 0 n)) = true -> forall j, j < N.of_nat n -> P j = true.
Proof.
  intros H j Hj. rewrite forallb_forall in H. apply H. apply in_map_iff. exists (N.to_nat j).
  split; [lia|]. apply in_seq. lia.
Qed.

(** ** Long lengths *)
Lemma len_run_ok tt : 1 <= tt -> forall fuel, tt < N.of_nat fuel ->
  exists k b, len_run fuel tt = Val (repeat 0 k ++ [b]) /\ tt = 255 * N.of_nat k + b /\ 1 <= b <= 255.
Proof.
  intros H fuel. revert tt H; induction fuel as [|f IH]; intros tt H Hf; [lia|]. cbn [len_run].
  destruct (N.leb_spec tt 255); [exists O, tt; split; [reflexivity|lia]|].
  destruct (IH (tt - 255)) as (k & b & E & E2 & E3); [lia|lia|]. rewrite E. cbn [rbind].
  exists (S k), b. split; [reflexivity|lia].
Qed.
Lemma len_bytes_ok tt : 1 <= tt ->
  exists k b, len_bytes tt = Val (repeat 0 k ++ [b]) /\ tt = 255 * N.of_nat k + b /\ 1 <= b <= 255.
Proof. intro H. apply len_run_ok; [exact H|lia]. Qed.

Lemma zero_run_zeros k b s : b <> 0 -> forall off, zero_run off (repeat 0 k ++ b :: s) = Val (inl (off + N.of_nat k, b, s)).
Proof.
  intro Hb. induction k as [|k IH]; intro off; cbn [repeat app zero_run].
  - destruct (N.eqb_spec b 0); [contradiction|]. do 3 f_equal. f_equal. lia.
  - change (0 =? 0) with true. cbv iota. destruct (repeat 0 k ++ b :: s) eqn:E; [now destruct k|].
    rewrite IH. do 4 f_equal. lia.
Qed.
Lemma long_len_ok2 base tt k b s : tt = 255 * N.of_nat k + b -> 1 <= b <= 255 -> tt < 2 ^ 63 ->
  long_len base ((repeat 0 k ++ [b]) ++ s) = Val (inl (tt + base, s)).
Proof.
  intros E Hb Ht. unfold long_len. rewrite <- app_assoc. cbn [app]. rewrite zero_run_zeros by lia. cbn [rbind].
  destruct (N.ltb_spec 72340172838076671 (0 + N.of_nat k)); [lia|]. do 3 f_equal. lia.
Qed.
Lemma blen_run k b : blen (repeat 0 k ++ [b]) = N.of_nat k + 1.
Proof. rewrite blen_app, blen_cons, blen_nil. unfold blen. rewrite repeat_length. lia. Qed.

(** ** Matches *)
Lemma land3_mod x : N.land x 3 = x mod 4.
Proof. change 3 with (N.ones 2). now rewrite N.land_ones. Qed.
Lemma land7_mod x : N.land x 7 = x mod 8.
Proof. change 7 with (N.ones 3). now rewrite N.land_ones. Qed.
Lemma land31_mod x : N.land x 31 = x mod 32.
Proof. change 31 with (N.ones 5). now rewrite N.land_ones. Qed.
Lemma shr n x : N.shiftr x n = x / 2 ^ n.
Proof. apply N.shiftr_div_pow2. Qed.
Lemma shl n x : N.shiftl x n = x * 2 ^ n.
Proof. apply N.shiftl_mul_pow2. Qed.
Lemma lor32 j : j < 32 -> N.lor 32 j mod 256 = 32 + j.
Proof. intro H. apply N.eqb_eq. apply (below (fun j => N.lor 32 j mod 256 =? 32 + j) 32); [reflexivity|exact H]. Qed.
Lemma land8 v : v < 16 -> N.land v 8 = 8 * (v / 8).
Proof. intro H. apply N.eqb_eq. apply (below (fun v => N.land v 8 =? 8 * (v / 8)) 16); [reflexivity|exact H]. Qed.
Lemma land8_byte v : v < 256 -> N.land v 8 = 8 * ((v / 8) mod 2).
Proof. intro H. apply N.eqb_eq. apply (below (fun v => N.land v 8 =? 8 * ((v / 8) mod 2)) 256); [reflexivity|exact H]. Qed.
Lemma lor16 h j : h < 2 -> j < 8 -> N.lor (N.lor 16 (8 * h)) j mod 256 = 16 + 8 * h + j /\ N.lor 16 (8 * h) mod 256 = 16 + 8 * h.
Proof.
  intros Hh Hj. assert (E : h = 0 \/ h = 1) by lia. split.
  - apply N.eqb_eq. destruct E as [-> | ->].
    + apply (below (fun j => N.lor (N.lor 16 (8 * 0)) j mod 256 =? 16 + 8 * 0 + j) 8); [reflexivity|exact Hj].
    + apply (below (fun j => N.lor (N.lor 16 (8 * 1)) j mod 256 =? 16 + 8 * 1 + j) 8); [reflexivity|exact Hj].
  - destruct E as [-> | ->]; reflexivity.
Qed.
Lemma lor_m2 m q : 3 <= m < 8 -> q < 8 -> N.lor (N.shiftl m 5) (N.shiftl q 2) mod 256 = 32 * m + 4 * q.
Proof.
  intros Hm Hq. apply N.eqb_eq.
  assert (E : m = 3 \/ m = 4 \/ m = 5 \/ m = 6 \/ m = 7) by lia.
  destruct E as [->|[->|[->|[->| ->]]]];
    match goal with |- context [N.shiftl ?m 5] => apply (below (fun q => N.lor (N.shiftl m 5) (N.shiftl q 2) mod 256 =? 32 * m + 4 * q) 8); [reflexivity|exact Hq] end.
Qed.

(** The last two bytes of a code carry the number of literals that follow. *)
Definition code_ok (m off : N) (a : bytes) (x y : N) : Prop :=
  x mod 4 = 0 /\ x < 256 /\ y < 256 /\
  blen (a ++ [x; y]) + 1 <= m /\
  forall k, k <= 3 -> exists b r, a ++ [x + k; y] = b :: r /\ 16 <= b < 256 /\
    forall st s, decode_match st b (r ++ s) = Val (IMatch m off k s).

Lemma m2_code m off : 4 <= m <= 8 -> 1 <= off <= 0x800 ->
  code_ok m off [] (32 * (m - 1) + 4 * ((off - 1) mod 8)) ((off - 1) / 8).
Proof.
  intros Hm Ho. split; [lia|]. split; [lia|]. split; [lia|]. split; [cbn; lia|].
  intros k Hk. eexists _, _. split; [reflexivity|]. split; [lia|].
  intros st s. unfold decode_match.
  destruct (N.ltb_spec (32 * (m - 1) + 4 * ((off - 1) mod 8) + k) 16); [lia|].
  destruct (N.leb_spec 64 (32 * (m - 1) + 4 * ((off - 1) mod 8) + k)); [|lia].
  cbn [app next_byte rbind]. rewrite land3_mod, land7_mod, !shr, shl.
  change (2 ^ 5) with 32. change (2 ^ 2) with 4. change (2 ^ 3) with 8.
  f_equal. f_equal; lia.
Qed.

Lemma tail_code o k : k <= 3 -> (o * 4) mod 256 + k + 256 * ((o / 64) mod 256) = 4 * (o mod 16384) + k.
Proof. intro H. lia. Qed.

Lemma m34_decode m3 h0 base a n len off o k :
  (m3 = true /\ 32 <= h0 < 64 /\ o < 16384 /\ off = o + 1) \/
  (m3 = false /\ 16 <= h0 < 32 /\ 1 <= o < 32768 /\ off = o + 0x4000 /\ (h0 / 8) mod 2 = o / 16384) ->
  base = (if m3 : bool then 31 else 7) ->
  let short := if m3 then h0 mod 32 + 2 else h0 mod 8 + 2 in
  (short <> 2 /\ a = [] /\ len = short) \/
  (short = 2 /\ n < 2 ^ 63 /\ (exists j b, a = repeat 0 j ++ [b] /\ n = 255 * N.of_nat j + b /\ 1 <= b <= 255) /\ len = 2 + base + n) ->
  k <= 3 ->
  forall st s, decode_match st h0 (a ++ [(o * 4) mod 256 + k; (o / 64) mod 256] ++ s) = Val (IMatch len off k s).
Proof.
  intros Hm Hbase short Ha Hk st s. unfold decode_match.
  destruct (N.ltb_spec h0 16); [lia|]. destruct (N.leb_spec 64 h0); [lia|].
  assert (E3 : (32 <=? h0) = m3) by (destruct Hm as [(-> & ? & _)|(-> & ? & _)]; [apply N.leb_le|apply N.leb_gt]; lia).
  rewrite E3. cbv zeta. rewrite land31_mod, land7_mod. fold short. rewrite <- Hbase.
  assert (HS : (if short =? 2 then
            r <- long_len base (a ++ [(o * 4) mod 256 + k; (o / 64) mod 256] ++ s);;
            match r with
            | inl (n0, s0) => if blen s0 <? 2 then Val (inr EInputOverrun) else Val (inl (short + n0, s0))
            | inr e => Val (inr e)
            end
          else Val (inl (short, a ++ [(o * 4) mod 256 + k; (o / 64) mod 256] ++ s)))
      = Val (inl (len, [(o * 4) mod 256 + k; (o / 64) mod 256] ++ s))).
  { destruct Ha as [(Hs & -> & ->)|(Hs & Hn & (j & b & -> & En & Hb) & ->)].
    - destruct (N.eqb_spec short 2); [contradiction|]. reflexivity.
    - destruct (N.eqb_spec short 2); [|contradiction]. rewrite (long_len_ok2 base n j b _ En Hb Hn). cbn [rbind].
      destruct (N.ltb_spec (blen ([(o * 4) mod 256 + k; (o / 64) mod 256] ++ s)) 2) as [L|_];
        [cbn [app] in L; rewrite !blen_cons in L; lia|]. do 3 f_equal. lia. }
  rewrite HS. cbn [rbind app next_le16]. rewrite land3_mod, shr. change (2 ^ 2) with 4. rewrite tail_code by exact Hk.
  replace ((4 * (o mod 16384) + k) / 4) with (o mod 16384) by lia.
  replace ((4 * (o mod 16384) + k) mod 4) with k by lia.
  destruct Hm as [(-> & H1 & H2 & ->)|(-> & H1 & H2 & -> & H3)].
  - f_equal. f_equal; lia.
  - rewrite land8_byte by lia. rewrite H3, shl. change (2 ^ 11) with 2048.
    replace (8 * (o / 16384) * 2048 + o mod 16384) with o by lia.
    destruct (N.eqb_spec o 0); [lia|]. reflexivity.
Qed.

Lemma run_nonempty k b : exists c r, repeat 0 k ++ [b] = c :: r.
Proof. destruct k; cbn; eauto. Qed.

Lemma match_code_ok m off : 4 <= m < 2 ^ 63 -> 1 <= off <= 0xBFFF ->
  exists a x y, match_code m off = Val (a ++ [x; y]) /\ code_ok m off a x y.
Proof.
  intros Hm Ho. unfold match_code.
  destruct ((m <=? 8) && (off <=? 0x800)) eqn:E.
  - apply andb_true_iff in E as [E1 E2]. apply N.leb_le in E1, E2. cbv zeta.
    exists [], (32 * (m - 1) + 4 * ((off - 1) mod 8)), ((off - 1) / 8). split; [|apply m2_code; lia].
    rewrite land7_mod. rewrite lor_m2 by lia. rewrite shr. change (2 ^ 3) with 8.
    rewrite (N.mod_small ((off - 1) / 8)) by lia. reflexivity.
  - clear E. cbv zeta. set (o := if off <=? 0x4000 then off - 1 else off - 0x4000).
    rewrite shl, (shr 6). change (2 ^ 2) with 4. change (2 ^ 6) with 64.
    set (x := (o * 4) mod 256). set (y := (o / 64) mod 256).
    assert (Hx : x mod 4 = 0 /\ x < 256 /\ y < 256) by (unfold x, y; lia).
    (* it is enough to give the head byte and the length bytes *)
    assert (K : forall h0 a n m3, 
      ((m3 = true /\ 32 <= h0 < 64 /\ o < 16384 /\ off = o + 1) \/
       (m3 = false /\ 16 <= h0 < 32 /\ 1 <= o < 32768 /\ off = o + 0x4000 /\ (h0 / 8) mod 2 = o / 16384)) ->
      ((let short := if m3 : bool then h0 mod 32 + 2 else h0 mod 8 + 2 in
       (short <> 2 /\ a = [] /\ m = short) \/
       (short = 2 /\ n < 2 ^ 63 /\ (exists j b, a = repeat 0 j ++ [b] /\ n = 255 * N.of_nat j + b /\ 1 <= b <= 255) /\ m = 2 + (if m3 then 31 else 7) + n))) ->
      code_ok m off (h0 :: a) x y).
    { intros h0 a n m3 H1 H2. destruct Hx as (Hx1 & Hx2 & Hy). split; [exact Hx1|]. split; [exact Hx2|]. split; [exact Hy|]. split.
      - cbv zeta in H2. rewrite blen_app, blen_cons. change (blen [x; y]) with 2.
        destruct H2 as [(_ & -> & _)|(Hs & _ & (j & b & -> & En & Hb) & El)]; [rewrite blen_nil; lia|].
        rewrite blen_run. destruct m3; lia.
      - intros k Hk. exists h0, (a ++ [x + k; y]). split; [reflexivity|]. split; [destruct H1 as [(_ & ? & _)|(_ & ? & _)]; lia|].
        intros st s. rewrite <- app_assoc. exact (m34_decode m3 h0 _ a n m off o k H1 eq_refl H2 Hk st s). }
    destruct (N.leb_spec off 0x4000) as [Hoff|Hoff].
    + assert (Eo : o = off - 1) by reflexivity.
      destruct (N.leb_spec m 33).
      * exists [32 + (m - 2)], x, y. split; [rewrite lor32 by lia; reflexivity|].
        apply (K _ [] 0 true); [left; repeat split; lia|]. cbv zeta. left. repeat split; lia.
      * destruct (len_bytes_ok (m - 33)) as (j & b & E & En & Hb); [lia|]. rewrite E. cbn [rbind].
        exists (32 :: repeat 0 j ++ [b]), x, y. split; [reflexivity|].
        apply (K _ _ (m - 33) true); [left; repeat split; lia|]. cbv zeta. right. change (32 mod 32 + 2) with 2.
        split; [reflexivity|]. split; [lia|]. split; [eauto|lia].
    + assert (Eo : o = off - 0x4000) by reflexivity.
      set (h := o / 16384). assert (Hh : h < 2) by (unfold h; lia).
      assert (E8 : N.land (N.shiftr o 11) 8 = 8 * h).
      { rewrite shr. change (2 ^ 11) with 2048. rewrite land8 by lia. unfold h. lia. }
      rewrite E8.
      destruct (N.leb_spec m 9).
      * destruct (lor16 h (m - 2) Hh ltac:(lia)) as [L1 _]. rewrite L1. cbn [rbind].
        exists [16 + 8 * h + (m - 2)], x, y. split; [reflexivity|].
        apply (K _ [] 0 false).
        -- right. split; [reflexivity|]. split; [lia|]. split; [lia|]. split; [lia|]. fold h. clear -Hh Hm H. lia.
        -- cbv zeta. left. split; [clear -Hh Hm H; lia|]. split; [reflexivity|]. clear -Hh Hm H. lia.
      * destruct (lor16 h 0 Hh ltac:(lia)) as [_ L2]. rewrite L2.
        destruct (len_bytes_ok (m - 9)) as (j & b & E & En & Hb); [lia|]. rewrite E. cbn [rbind].
        exists (16 + 8 * h :: repeat 0 j ++ [b]), x, y. split; [reflexivity|].
        apply (K _ _ (m - 9) false).
        -- right. split; [reflexivity|]. split; [lia|]. split; [lia|]. split; [lia|]. fold h. clear -Hh. lia.
        -- cbv zeta. right. split; [clear -Hh; lia|]. split; [lia|]. split; [eauto|lia].
Qed.
