(** C57: the decompressor accepts exactly the streams of the format, and expands them as the format says. *)
From Verif Require Import Base.Tactics Base.Bytes Lzo.Model Lzo.Safety Lzo.Codes Lzo.FormatSpec.
Local Open Scope N_scope.

Definition limit : N := 72340172838076671.

(** ** Lengths *)
Lemma zero_run_inv s : forall off z b r, zero_run off s = Val (inl (z, b, r)) ->
  exists k, s = repeat 0 k ++ b :: r /\ b <> 0 /\ z = off + N.of_nat k.
Proof.
  induction s as [|c s IH]; intros off z b r H; cbn [zero_run] in H; [discriminate|].
  destruct (N.eqb_spec c 0).
  - subst c. destruct s as [|d s]; [discriminate|]. apply IH in H as (k & E & Hb & Ez). exists (S k).
    split; [cbn [repeat app]; now rewrite E|]. split; [exact Hb|lia].
  - injection H as <- <- <-. exists O. split; [reflexivity|]. split; [exact n|lia].
Qed.

Lemma long_len_inv base s n r : long_len base s = Val (inl (n, r)) ->
  exists k b, s = (repeat 0 k ++ [b]) ++ r /\ b <> 0 /\ n = base + 255 * N.of_nat k + b.
Proof.
  unfold long_len. destruct (zero_run 0 s) as [[[[z b] r']|]| |] eqn:E; cbn [rbind]; try discriminate.
  apply zero_run_inv in E as (k & -> & Hb & ->). destruct (_ <? _); [discriminate|]. intros [= <- <-].
  exists k, b. split; [now rewrite <- app_assoc|]. split; [exact Hb|lia].
Qed.

Lemma long_len_run base k b s : b <> 0 -> N.of_nat k <= limit ->
  long_len base ((repeat 0 k ++ [b]) ++ s) = Val (inl (base + 255 * N.of_nat k + b, s)).
Proof.
  intros Hb Hk. unfold long_len. rewrite <- app_assoc. cbn [app]. rewrite zero_run_zeros by exact Hb. cbn [rbind].
  unfold limit in Hk. destruct (N.ltb_spec 72340172838076671 (0 + N.of_nat k)); [lia|]. do 3 f_equal. lia.
Qed.

(** ** Copies *)
Lemma nth_app_l {A} (a b : list A) i : (i < length a)%nat -> nth_error (a ++ b) i = nth_error a i.
Proof. apply nth_error_app1. Qed.

Lemma copy_back_copied cap t : forall m o o', copy_back cap t m o = Val o' -> m < blen o ->
  copied (blen o - m) (N.of_nat t) o o'.
Proof.
  induction t as [|t IH]; intros m o o' H Hm; cbn [copy_back] in H.
  - injection H as <-. unfold copied. rewrite firstn_all. split; [lia|]. split; [lia|]. split; [reflexivity|]. lia.
  - destruct (nth_error o (N.to_nat m)) as [b|] eqn:E; [|discriminate].
    destruct (blen o <? cap); [|discriminate]. apply IH in H; [|rewrite blen_app, blen_cons, blen_nil; lia].
    destruct H as (H1 & H2 & H3 & H4). rewrite blen_app, blen_cons, blen_nil in *.
    replace (blen o + (1 + 0) - (m + 1)) with (blen o - m) in * by lia.
    rewrite app_length in H3, H4. cbn [length] in H3, H4.
    assert (Ho : exists x, o' = o ++ b :: x).
    { exists (skipn (length o + 1) o'). rewrite <- (firstn_skipn (length o + 1) o') at 1. rewrite H3, <- app_assoc. reflexivity. }
    split; [lia|]. split; [lia|]. split.
    + destruct Ho as [x ->]. rewrite firstn_app, firstn_all, Nat.sub_diag. cbn. now rewrite app_nil_r.
    + intros i Hi. destruct (Nat.eq_dec i (length o)) as [->|Hne]; [|apply H4; lia].
      destruct Ho as [x ->]. rewrite nth_error_app2, Nat.sub_diag by lia. cbn [nth_error].
      rewrite nth_app_l by (unfold blen in *; lia). rewrite <- E. f_equal. clear - Hm. unfold blen in *. lia.
Qed.

Lemma copied_unique dist len o o1 o2 : copied dist len o o1 -> copied dist len o o2 -> o1 = o2.
Proof.
  intros (Hd & L1 & F1 & N1) (_ & L2 & F2 & N2).
  assert (Hlen : length o1 = length o2) by (unfold blen in *; lia).
  assert (G : forall i, (i < length o1)%nat -> nth_error o1 i = nth_error o2 i).
  { induction i as [i IH] using lt_wf_ind. intro Hi. destruct (Nat.lt_ge_cases i (length o)) as [Hlt|Hge].
    - rewrite <- (firstn_skipn (length o) o1), F1, <- (firstn_skipn (length o) o2), F2.
      rewrite !nth_app_l by exact Hlt. reflexivity.
    - rewrite N1, N2 by lia. apply IH; unfold blen in *; lia. }
  clear - Hlen G. revert o2 Hlen G. induction o1 as [|x o1 IH]; intros [|y o2] Hl G; try discriminate; [reflexivity|].
  pose proof (G O ltac:(cbn; lia)) as G0. cbn in G0. injection G0 as ->. f_equal. apply IH; [now injection Hl|].
  intros i Hi. apply (G (S i)). cbn. lia.
Qed.

Lemma copy_back_run cap t m o o' : copied (blen o - m) (N.of_nat t) o o' -> m < blen o -> blen o + N.of_nat t <= cap ->
  copy_back cap t m o = Val o'.
Proof.
  intros Hc Hm Hcap. destruct (copy_back_ok cap t m o Hm Hcap) as (x & E & L). rewrite E. f_equal.
  apply copy_back_copied in E; [|exact Hm]. eapply copied_unique; eauto.
Qed.

(** ** Instructions *)
Lemma le16_split a b : a < 256 -> b < 256 ->
  let v := a + 256 * b in [v mod 256; v / 256] = [a; b] /\ v / 4 < 16384 /\ v = 4 * (v / 4) + v mod 4.
Proof.
  intros Ha Hb. cbv zeta. assert (E1 : (a + 256 * b) mod 256 = a) by lia. assert (E2 : (a + 256 * b) / 256 = b) by lia.
  rewrite E1, E2. split; [reflexivity|]. split; lia.
Qed.

(** The length part shared by the two long forms (decompress.rs:240-283, 289-334). *)
Lemma length_part (m3 : bool) f s len r : f < (if m3 then 32 else 8) ->
  (if f + 2 =? 2
   then rbind (long_len (if m3 then 31 else 7) s)
          (fun q => match q with
                    | inl (n, s0) => if blen s0 <? 2 then Val (inr EInputOverrun) else Val (inl (f + 2 + n, s0))
                    | inr e => Val (inr e)
                    end)
   else Val (inl (f + 2, s))) = Val (inl (len, r) : N * bytes + lzo_error) ->
  exists extra n, length_field f (if m3 then 31 else 7) extra n /\ s = extra ++ r /\ len = n + 2.
Proof.
  intros Hf H. destruct (N.eqb_spec (f + 2) 2).
  - assert (f = 0) by lia. subst f. destruct (long_len _ s) as [[[n r']|]| |] eqn:E; cbn [rbind] in H; try discriminate.
    destruct (_ <? 2); [discriminate|]. assert (K : len = 0 + 2 + n /\ r = r') by (split; congruence).
    destruct K as [-> ->]. apply long_len_inv in E as (k & b & -> & Hb & ->).
    exists (repeat 0 k ++ [b]), ((if m3 then 31 else 7) + 255 * N.of_nat k + b).
    split; [now apply field_extended|]. split; [reflexivity|]. destruct m3; lia.
  - injection H as <- <-. exists [], f. split; [apply field_itself; lia|]. split; [reflexivity|lia].
Qed.

Lemma length_part_run (m3 : bool) f extra n r : length_field f (if m3 then 31 else 7) extra n ->
  blen extra <= limit -> 2 <= blen r ->
  (if f + 2 =? 2
   then rbind (long_len (if m3 then 31 else 7) (extra ++ r))
          (fun q => match q with
                    | inl (n, s0) => if blen s0 <? 2 then Val (inr EInputOverrun) else Val (inl (f + 2 + n, s0))
                    | inr e => Val (inr e)
                    end)
   else Val (inl (f + 2, extra ++ r))) = Val (inl (n + 2, r) : N * bytes + lzo_error).
Proof.
  intros H Hl Hr. inversion H as [Hf|k b Hf Hb]; subst.
  - destruct (N.eqb_spec (n + 2) 2); [lia|]. reflexivity.
  - change (0 + 2 =? 2) with true. cbv iota. rewrite blen_run in Hl. rewrite long_len_run by (auto; lia). cbn [rbind].
    destruct (N.ltb_spec (blen r) 2); [lia|]. do 3 f_equal. destruct m3; lia.
Qed.

Lemma length_field_inv f base extra n : length_field f base extra n ->
  (f <> 0 /\ extra = [] /\ n = f) \/
  (f = 0 /\ exists k b, b <> 0 /\ extra = repeat 0 k ++ [b] /\ n = base + 255 * N.of_nat k + b).
Proof. intros [H|k b H Hb]; [left; auto|right; split; [exact H|]; exists k, b; auto]. Qed.

Lemma match_inj a b c d a' b' c' d' : Val (IMatch a b c d) = Val (IMatch a' b' c' d') -> a = a' /\ b = b' /\ c = c' /\ d = d'.
Proof. intro H. injection H. auto. Qed.
Lemma end_inj a b a' b' : Val (IEnd a b) = Val (IEnd a' b') -> a = a' /\ b = b'.
Proof. intro H. injection H. auto. Qed.

Lemma decode_match_inv state t s len dist nx r : is_bytes (t :: s) -> (t < 16 -> 1 <= state <= 4) ->
  decode_match state t s = Val (IMatch len dist nx r) ->
  exists code, t :: s = code ++ r /\ instruction state code len dist nx.
Proof.
  intros Hb Hst H. apply is_bytes_cons in Hb as [Ht Hs]. unfold decode_match in H.
  destruct (N.ltb_spec t 16) as [H16|H16].
  { specialize (Hst H16). destruct s as [|h s]; [discriminate|]. cbn [next_byte rbind] in H.
    rewrite !shr, !shl, land3_mod in H. change (2 ^ 2) with 4 in H.
    exists [t; h]. destruct (N.eqb_spec state 4); cbn [negb] in H; apply match_inj in H as (<- & <- & <- & <-); (split; [reflexivity|]).
    - replace [t; h] with [4 * (t / 4) + t mod 4; h] by (f_equal; lia).
      replace (1 + 0x800 + t / 4 + h * 4) with (4 * h + t / 4 + 2049) by lia. apply i_three; [lia|lia|lia].
    - replace [t; h] with [4 * (t / 4) + t mod 4; h] by (f_equal; lia).
      replace (1 + t / 4 + h * 4) with (4 * h + t / 4 + 1) by lia. apply i_two; [lia|lia|lia]. }
  destruct (N.leb_spec 64 t) as [H64|H64].
  { destruct s as [|h s]; [discriminate|]. cbn [next_byte rbind] in H.
    rewrite !shr, !shl, land3_mod, land7_mod in H. change (2 ^ 2) with 4 in H. change (2 ^ 5) with 32 in H. change (2 ^ 3) with 8 in H.
    apply match_inj in H as (<- & <- & <- & <-). exists [t; h]. split; [reflexivity|].
    replace [t; h] with [32 * (t / 32) + 4 * ((t / 4) mod 8) + t mod 4; h] by (f_equal; lia).
    replace (t / 32 - 1 + 2) with (t / 32 + 1) by lia.
    replace (1 + (t / 4) mod 8 + h * 8) with (8 * h + (t / 4) mod 8 + 1) by lia. apply i_short; lia. }
  cbv zeta in H. rewrite land31_mod, land7_mod, land8_byte in H by exact Ht.
  destruct (N.leb_spec 32 t) as [H32|H32]; cbv iota in H.
  - match type of H with rbind ?f _ = _ => destruct f as [[[len' r']|e]| |] eqn:E; cbn [rbind] in H; try discriminate end.
    apply (length_part true) in E as (extra & n & Hlf & -> & ->); [|lia].
    destruct r' as [|a [|b r']]; try discriminate. cbn [next_le16 rbind] in H.
    apply is_bytes_app in Hs as [_ Hs]. apply is_bytes_cons in Hs as [Ha Hs]. apply is_bytes_cons in Hs as [Hbb _].
    rewrite shr, land3_mod in H. change (2 ^ 2) with 4 in H. apply match_inj in H as (<- & <- & <- & <-).
    destruct (le16_split a b Ha Hbb) as (E1 & E2 & E3). cbv zeta in E1, E2, E3. set (v := a + 256 * b) in *.
    exists (t :: extra ++ [a; b]). split; [cbn [app]; rewrite <- app_assoc; reflexivity|].
    replace t with (32 + t mod 32) at 1 by lia. rewrite <- E1.
    replace [v mod 256; v / 256] with [(4 * (v / 4) + v mod 4) mod 256; (4 * (v / 4) + v mod 4) / 256] by (now rewrite <- E3).
    rewrite (N.add_comm 1 (v / 4)). apply i_near; [lia|exact Hlf|exact E2|lia].
  - match type of H with rbind ?f _ = _ => destruct f as [[[len' r']|e]| |] eqn:E; cbn [rbind] in H; try discriminate end.
    apply (length_part false) in E as (extra & n & Hlf & -> & ->); [|lia].
    destruct r' as [|a [|b r']]; try discriminate. cbn [next_le16 rbind] in H.
    apply is_bytes_app in Hs as [_ Hs]. apply is_bytes_cons in Hs as [Ha Hs]. apply is_bytes_cons in Hs as [Hbb _].
    rewrite shl, shr, land3_mod in H. change (2 ^ 2) with 4 in H. change (2 ^ 11) with 2048 in H.
    destruct (le16_split a b Ha Hbb) as (E1 & E2 & E3). cbv zeta in E1, E2, E3. set (v := a + 256 * b) in *.
    destruct (N.eqb_spec (8 * ((t / 8) mod 2) * 2048 + v / 4) 0) as [|Hne]; [discriminate|].
    apply match_inj in H as (<- & <- & <- & <-).
    exists (t :: extra ++ [a; b]). split; [cbn [app]; rewrite <- app_assoc; reflexivity|].
    replace t with (16 + 8 * ((t / 8) mod 2) + t mod 8) at 1 by lia. rewrite <- E1.
    replace [v mod 256; v / 256] with [(4 * (v / 4) + v mod 4) mod 256; (4 * (v / 4) + v mod 4) / 256] by (now rewrite <- E3).
    replace (8 * ((t / 8) mod 2) * 2048 + v / 4 + 0x4000) with (16384 + 16384 * ((t / 8) mod 2) + v / 4) by lia.
    apply i_far; [lia|lia|exact Hlf|exact E2|lia|lia].
Qed.

Lemma decode_match_end state t s n r : is_bytes (t :: s) -> 16 <= t -> decode_match state t s = Val (IEnd n r) -> n = 3 ->
  exists k, k < 4 /\ t :: s = [17; k; 0] ++ r.
Proof.
  intros Hb H16 H Hn. apply is_bytes_cons in Hb as [Ht Hs]. unfold decode_match in H.
  destruct (N.ltb_spec t 16) as [|_]; [lia|].
  destruct (N.leb_spec 64 t) as [H64|H64].
  { destruct s as [|h s]; cbn [next_byte rbind] in H; discriminate. }
  cbv zeta in H. rewrite land31_mod, land7_mod, land8_byte in H by exact Ht.
  destruct (N.leb_spec 32 t) as [H32|H32]; cbv iota in H.
  - match type of H with rbind ?f _ = _ => destruct f as [[[len' r']|e]| |] eqn:E; cbn [rbind] in H; try discriminate end.
    destruct r' as [|a [|b r']]; cbn [next_le16 rbind] in H; discriminate.
  - match type of H with rbind ?f _ = _ => destruct f as [[[len' r']|e]| |] eqn:E; cbn [rbind] in H; try discriminate end.
    apply (length_part false) in E as (extra & m & Hlf & -> & ->); [|lia].
    destruct r' as [|a [|b r']]; try discriminate. cbn [next_le16 rbind] in H.
    apply is_bytes_app in Hs as [_ Hs]. apply is_bytes_cons in Hs as [Ha Hs]. apply is_bytes_cons in Hs as [Hbb _].
    rewrite shl, shr in H. change (2 ^ 2) with 4 in H. change (2 ^ 11) with 2048 in H.
    destruct (N.eqb_spec (8 * ((t / 8) mod 2) * 2048 + (a + 256 * b) / 4) 0) as [Hz|]; [|discriminate].
    apply end_inj in H as [<- <-]. assert (m = 1) by lia. subst m. apply length_field_inv in Hlf as [(_ & -> & Hm)|(_ & k & b' & _ & _ & Hm)]; [|lia].
    exists a. split; [lia|]. cbn [app]. f_equal; [lia|]. f_equal. f_equal. lia.
Qed.

(** Reading an instruction of the format. *)
Lemma decode_match_run state code len dist k r : instruction state code len dist k -> blen code <= limit ->
  exists t c, code = t :: c /\ (t < 16 -> 1 <= state <= 4) /\ decode_match state t (c ++ r) = Val (IMatch len dist k r).
Proof.
  intros H Hl. inversion H as [d s h Hs Hd Hk|d s h Hs Hd Hk|top l extra n d s Htop Hlt Hlf Hd Hk Hne|l extra n d s Hlt Hlf Hd Hk|kk d s h Hkk Hd Hk]; subst; eexists _, _; (split; [reflexivity|]).
  - split; [lia|]. unfold decode_match. destruct (N.ltb_spec (4 * d + k) 16); [|lia]. cbn [app next_byte rbind].
    destruct (N.eqb_spec state 4); [lia|]. cbn [negb]. rewrite shr, shl, land3_mod. change (2 ^ 2) with 4.
    do 2 f_equal; lia.
  - split; [lia|]. unfold decode_match. destruct (N.ltb_spec (4 * d + k) 16); [|lia]. cbn [app next_byte rbind].
    change (negb (4 =? 4)) with false. cbv iota. rewrite shr, shl, land3_mod. change (2 ^ 2) with 4.
    do 2 f_equal; lia.
  - split; [lia|]. unfold decode_match. set (t := 16 + 8 * top + l). assert (Ht : t < 256) by (unfold t; lia).
    destruct (N.ltb_spec t 16); [unfold t in *; lia|]. destruct (N.leb_spec 64 t); [unfold t in *; lia|].
    destruct (N.leb_spec 32 t); [unfold t in *; lia|]. cbv zeta iota.
    rewrite land7_mod, land8_byte by exact Ht.
    replace (t mod 8) with l by (unfold t; lia). replace ((t / 8) mod 2) with top by (unfold t; lia).
    rewrite <- app_assoc.
    rewrite (length_part_run false l extra n ([(4 * d + k) mod 256; (4 * d + k) / 256] ++ r) Hlf);
      [|rewrite blen_cons, blen_app in Hl; lia|rewrite blen_app, !blen_cons; lia].
    cbn [app next_le16 rbind]. rewrite shl, shr, land3_mod. change (2 ^ 2) with 4. change (2 ^ 11) with 2048.
    replace ((4 * d + k) mod 256 + 256 * ((4 * d + k) / 256)) with (4 * d + k) by lia.
    replace ((4 * d + k) / 4) with d by lia. replace ((4 * d + k) mod 4) with k by lia.
    destruct (N.eqb_spec (8 * top * 2048 + d) 0); [lia|]. do 2 f_equal; lia.
  - split; [lia|]. unfold decode_match. set (t := 32 + l). assert (Ht : t < 256) by (unfold t; lia).
    destruct (N.ltb_spec t 16); [unfold t in *; lia|]. destruct (N.leb_spec 64 t); [unfold t in *; lia|].
    destruct (N.leb_spec 32 t); [|unfold t in *; lia]. cbv zeta iota.
    rewrite land31_mod. replace (t mod 32) with l by (unfold t; lia). rewrite <- app_assoc.
    rewrite (length_part_run true l extra n ([(4 * d + k) mod 256; (4 * d + k) / 256] ++ r) Hlf);
      [|rewrite blen_cons, blen_app in Hl; lia|rewrite blen_app, !blen_cons; lia].
    cbn [app next_le16 rbind]. rewrite shr, land3_mod. change (2 ^ 2) with 4.
    replace ((4 * d + k) mod 256 + 256 * ((4 * d + k) / 256)) with (4 * d + k) by lia.
    replace ((4 * d + k) / 4) with d by lia. replace ((4 * d + k) mod 4) with k by lia. do 2 f_equal; lia.
  - split; [lia|]. unfold decode_match. set (t := 32 * kk + 4 * d + k). assert (Ht : t < 256) by (unfold t; lia).
    destruct (N.ltb_spec t 16); [unfold t in *; lia|]. destruct (N.leb_spec 64 t); [|unfold t in *; lia].
    cbn [app next_byte rbind]. rewrite !shr, shl, land3_mod, land7_mod. change (2 ^ 2) with 4. change (2 ^ 5) with 32. change (2 ^ 3) with 8.
    replace (t / 32) with kk by (unfold t; lia). replace ((t / 4) mod 8) with d by (unfold t; lia).
    replace (t mod 4) with k by (unfold t; lia). do 2 f_equal; lia.
Qed.

Lemma instruction_facts state code len dist k : instruction state code len dist k -> k < 4 /\ 1 <= dist /\ 2 <= len.
Proof. intro H. inversion H; subst; lia. Qed.

(** ** The loop *)
Lemma firstn_skipn_N n (s : bytes) : n <= blen s -> exists a b, s = a ++ b /\ blen a = n /\ firstn (N.to_nat n) s = a /\ skipn (N.to_nat n) s = b.
Proof.
  intro H. exists (firstn (N.to_nat n) s), (skipn (N.to_nat n) s). rewrite firstn_skipn. repeat split.
  rewrite blen_firstn. lia.
Qed.

Lemma decode_sound cap fuel : forall state o s out, is_bytes s -> state <= 4 ->
  decode cap fuel state o s = Val (Decoded out) -> blen o <= cap -> stream state o s out /\ blen out <= cap.
Proof.
  induction fuel as [|f IH]; intros state o s out Hb Hst H Ho; [discriminate|]. cbn [decode] in H.
  destruct s as [|t s]; [discriminate|]. cbn [next_byte rbind] in H. pose proof Hb as Hb0.
  apply is_bytes_cons in Hb as [Ht Hs].
  destruct ((t <? 16) && (state =? 0)) eqn:Elit.
  - apply andb_prop in Elit as [E1 E2]. apply N.ltb_lt in E1. apply N.eqb_eq in E2. subst state.
    assert (Hlen : exists extra n s', length_field t 15 extra n /\ s = extra ++ s' /\
      (if t =? 0 then long_len 15 s else Val (inl (t, s))) = Val (inl (n, s')) \/
      exists e, (if t =? 0 then long_len 15 s else Val (inl (t, s))) = Val (inr e) \/
        (if t =? 0 then long_len 15 s else Val (inl (t, s))) = (Fault : run (N * bytes + lzo_error)) \/
        (if t =? 0 then long_len 15 s else Val (inl (t, s))) = (NoFuel : run (N * bytes + lzo_error))).
    { destruct (N.eqb_spec t 0).
      - subst t. destruct (long_len 15 s) as [[[n s']|e]| |] eqn:E.
        + apply long_len_inv in E as (k & b & -> & Hnb & ->). exists (repeat 0 k ++ [b]). eexists _, s'. left.
          split; [now apply field_extended|]. split; reflexivity.
        + exists [], 0, []. right. exists e. now left.
        + exists [], 0, []. right. exists EError. right. now left.
        + exists [], 0, []. right. exists EError. right. now right.
      - exists [], t, s. left. split; [now apply field_itself|]. split; reflexivity. }
    destruct Hlen as (extra & n & s' & [(Hlf & -> & E)|(e & [E|[E|E]])]); rewrite E in H; cbn [rbind] in H; try discriminate.
    cbv zeta in H. destruct (N.ltb_spec (cap - blen o) (n + 3)); [discriminate|].
    destruct (N.ltb_spec (blen s') (n + 3 + 3)); [discriminate|].
    rewrite copy_in_ok in H by lia. cbn [rbind] in H.
    destruct (firstn_skipn_N (n + 3) s') as (lits & rest & -> & Hl & E1' & E2'); [lia|]. rewrite E1', E2' in H.
    apply is_bytes_app in Hs as [_ Hs]. apply is_bytes_app in Hs as [_ Hs].
    apply IH in H as [H Hc]; [|exact Hs|lia|rewrite blen_app; lia]. split; [|exact Hc].
    eapply st_literals; eauto.
  - assert (Hpre : t < 16 -> 1 <= state <= 4).
    { intro Hlt. apply N.ltb_lt in Hlt. rewrite Hlt in Elit. cbn [andb] in Elit. apply N.eqb_neq in Elit. lia. }
    destruct (decode_match state t s) as [[len dist nx r|n r|e]| |] eqn:Ed; cbn [rbind] in H; try discriminate.
    + destruct (N.ltb_spec (blen o) dist) as [|Hd]; [discriminate|]. destruct (N.ltb_spec (cap - blen o) len); [discriminate|].
      apply decode_match_inv in Ed as (code & Ecode & Hi); [|exact Hb0|exact Hpre].
      pose proof (instruction_facts _ _ _ _ _ Hi) as (Hk & Hd1 & Hl2).
      destruct (copy_back cap (N.to_nat len) (blen o - dist) o) as [o'| |] eqn:Ec; cbn [rbind] in H; try discriminate.
      apply copy_back_copied in Ec; [|lia]. replace (blen o - (blen o - dist)) with dist in Ec by lia.
      rewrite Nnat.N2Nat.id in Ec. pose proof Ec as (_ & Lo' & _ & _).
      destruct (N.ltb_spec (blen r) (nx + 3)); [discriminate|]. destruct (N.ltb_spec (cap - blen o') nx); [discriminate|].
      rewrite copy_in_ok in H by lia. cbn [rbind] in H.
      destruct (firstn_skipn_N nx r) as (lits & rest & -> & Hl & E1' & E2'); [lia|]. rewrite E1', E2' in H.
      rewrite Ecode in Hb0 |- *. apply is_bytes_app in Hb0 as [_ Hb0]. apply is_bytes_app in Hb0 as [_ Hb0].
      apply IH in H as [H Hc]; [|exact Hb0|lia|rewrite blen_app; lia]. split; [|exact Hc].
      eapply st_copy; eauto.
    + destruct (N.eqb_spec n 3) as [En|]; cbn [negb] in H; [|discriminate]. destruct r as [|]; [|discriminate].
      injection H as <-. split; [|exact Ho].
      destruct (N.lt_ge_cases t 16) as [Hlt|Hge].
      { exfalso. unfold decode_match in Ed. destruct (N.ltb_spec t 16); [|lia]. destruct s as [|h s]; cbn [next_byte rbind] in Ed; [discriminate|].
        destruct (negb _); discriminate. }
      apply decode_match_end in Ed as (k & Hk & E); [|exact Hb0|exact Hge|exact En]. rewrite E. cbn [app]. now apply st_end.
Qed.

Lemma stream_length state o s out : stream state o s out -> 3 <= blen s /\ blen o <= blen out.
Proof.
  induction 1 as [f extra n lits o rest out Hf Hlf Hl H [IH1 IH2]|state code len dist k lits o o' rest out Hi Hc Hl H [IH1 IH2]|state o s Hs].
  - rewrite blen_cons, !blen_app. rewrite blen_app in IH2. lia.
  - rewrite !blen_app. rewrite blen_app in IH2. destruct Hc as (_ & L & _). lia.
  - change (blen [17; s; 0]) with 3. lia.
Qed.

Lemma decode_complete cap state o s out : stream state o s out -> blen out <= cap -> blen s <= limit ->
  forall fuel, (length s < fuel)%nat -> decode cap fuel state o s = Val (Decoded out).
Proof.
  induction 1 as [f extra n lits o rest out Hf Hlf Hl H IH|state code len dist k lits o o' rest out Hi Hc Hl H IH|state o s Hs];
    intros Hcap Hlim fuel Hfuel.
  - pose proof (stream_length _ _ _ _ H) as [L1 L2]. rewrite blen_app in L2. rewrite blen_cons, !blen_app in Hlim.
    cbn [length] in Hfuel. rewrite !app_length in Hfuel.
    destruct fuel as [|fuel]; [lia|]. cbn [decode next_byte rbind].
    destruct (N.ltb_spec f 16); [|lia]. change (0 =? 0) with true. cbn [andb].
    assert (E : (if f =? 0 then long_len 15 (extra ++ lits ++ rest) else Val (inl (f, extra ++ lits ++ rest))) = Val (inl (n, lits ++ rest))).
    { inversion Hlf as [Hne|z b Hz Hb]; subst.
      - destruct (N.eqb_spec n 0); [contradiction|]. reflexivity.
      - change (0 =? 0) with true. cbv iota. rewrite blen_run in Hlim. apply long_len_run; [exact Hb|lia]. }
    rewrite E. cbn [rbind]. cbv zeta. destruct (N.ltb_spec (cap - blen o) (n + 3)); [lia|].
    destruct (N.ltb_spec (blen (lits ++ rest)) (n + 3 + 3)); [rewrite blen_app in *; lia|].
    rewrite copy_in_ok by (rewrite ?blen_app; lia). cbn [rbind].
    assert (El : N.to_nat (n + 3) = length lits) by (unfold blen in Hl; lia). rewrite El.
    rewrite firstn_app, firstn_all, Nat.sub_diag, skipn_app, skipn_all, Nat.sub_diag. cbn [firstn skipn app]. rewrite app_nil_r.
    apply IH; [exact Hcap|lia|lia].
  - pose proof (stream_length _ _ _ _ H) as [L1 L2]. rewrite blen_app in L2. rewrite !blen_app in Hlim.
    rewrite !app_length in Hfuel. pose proof (instruction_facts _ _ _ _ _ Hi) as (Hk & Hd1 & Hl2).
    destruct (decode_match_run state code len dist k (lits ++ rest) Hi) as (t & c & -> & Hst & E); [lia|].
    destruct fuel as [|fuel]; [lia|]. cbn [app decode next_byte rbind].
    assert (Eb : (t <? 16) && (state =? 0) = false).
    { destruct (N.ltb_spec t 16) as [Hlt|]; [|reflexivity]. specialize (Hst Hlt). destruct (N.eqb_spec state 0); [lia|reflexivity]. }
    rewrite Eb, E. cbn [rbind]. pose proof Hc as (Hd & Lo & _ & _).
    destruct (N.ltb_spec (blen o) dist); [lia|]. destruct (N.ltb_spec (cap - blen o) len); [lia|].
    rewrite (copy_back_run cap (N.to_nat len) (blen o - dist) o o');
      [|rewrite Nnat.N2Nat.id; replace (blen o - (blen o - dist)) with dist by lia; exact Hc|lia|lia].
    cbn [rbind]. destruct (N.ltb_spec (blen (lits ++ rest)) (k + 3)); [rewrite blen_app in *; lia|].
    destruct (N.ltb_spec (cap - blen o') k); [lia|]. rewrite copy_in_ok by (rewrite ?blen_app; lia). cbn [rbind].
    assert (El : N.to_nat k = length lits) by (unfold blen in Hl; lia). rewrite El.
    rewrite firstn_app, firstn_all, Nat.sub_diag, skipn_app, skipn_all, Nat.sub_diag. cbn [firstn skipn app]. rewrite app_nil_r.
    cbn [length] in Hfuel. apply IH; [exact Hcap|lia|lia].
  - destruct fuel as [|fuel]; [lia|]. cbn [decode next_byte rbind].
    change (17 <? 16) with false. cbn [andb].
    assert (E : decode_match state 17 [s; 0] = Val (IEnd 3 [])).
    { unfold decode_match. change (17 <? 16) with false. change (64 <=? 17) with false. change (32 <=? 17) with false. cbv zeta iota.
      change (N.land 17 7 + 2 =? 2) with false. cbn [rbind next_le16]. change (N.land 17 8) with 0. rewrite shr. change (2 ^ 2) with 4.
      replace (N.shiftl 0 11 + (s + 256 * 0) / 4) with 0 by (cbn; lia). reflexivity. }
    rewrite E. cbn [rbind]. reflexivity.
Qed.

(** C57. Decompression of any bytes (below 2^56 of them) into a buffer of any size succeeds with [out] exactly
    when they are a stream of the format that expands to [out] and [out] fits. *)
Theorem C57_decompress_follows_format : forall buffer input out,
  is_bytes input -> blen input < 2 ^ 56 ->
  (decompress buffer input = Val (Decoded out) <-> lzo1x input out /\ blen out <= buffer).
Proof.
  intros cap s out Hb Hlim0. assert (Hlim : blen s <= limit) by (unfold limit; lia). clear Hlim0. unfold decompress. split.
  - destruct (N.ltb_spec (blen s) 3); [discriminate|]. destruct s as [|b r]; [discriminate|].
    pose proof Hb as Hb0. apply is_bytes_cons in Hb0 as [Hb1 Hr].
    destruct (N.ltb_spec 17 b) as [Hbig|Hsmall].
    + cbv zeta. destruct (N.ltb_spec (b - 17) 4).
      * destruct (N.ltb_spec (blen r) (b - 17 + 3)); [discriminate|]. destruct (N.ltb_spec cap (b - 17)); [discriminate|].
        rewrite copy_in_ok by (rewrite ?blen_nil; lia). cbn [rbind]. cbn [app].
        destruct (firstn_skipn_N (b - 17) r) as (lits & rest & -> & Hl & E1 & E2); [lia|]. rewrite E1, E2. intro H'.
        apply is_bytes_app in Hr as [_ Hr]. apply decode_sound in H' as [H' Hc]; [|exact Hr|lia|lia]. split; [|exact Hc].
        apply first_literals; [exact Hbig|exact Hl|]. now rewrite N.min_l by lia.
      * destruct (N.ltb_spec cap (b - 17)); [discriminate|]. destruct (N.ltb_spec (blen r) (b - 17 + 3)); [discriminate|].
        rewrite copy_in_ok by (rewrite ?blen_nil; lia). cbn [rbind]. cbn [app].
        destruct (firstn_skipn_N (b - 17) r) as (lits & rest & -> & Hl & E1 & E2); [lia|]. rewrite E1, E2. intro H'.
        apply is_bytes_app in Hr as [_ Hr]. apply decode_sound in H' as [H' Hc]; [|exact Hr|lia|lia]. split; [|exact Hc].
        apply first_literals; [exact Hbig|exact Hl|]. now rewrite N.min_r by lia.
    + intro H'. apply decode_sound in H' as [H' Hc]; [|exact Hb|lia|rewrite blen_nil; lia]. split; [|exact Hc].
      now apply first_instruction.
  - intros [H Hcap]. inversion H as [b lits rest out' Hbig Hl Hs|b rest out' Hsmall Hs]; subst.
    + pose proof (stream_length _ _ _ _ Hs) as [L1 L2]. rewrite blen_cons, blen_app in *.
      destruct (N.ltb_spec (1 + (blen lits + blen rest)) 3); [lia|]. destruct (N.ltb_spec 17 b); [|lia]. cbv zeta.
      assert (El : N.to_nat (b - 17) = length lits) by (unfold blen in Hl; lia).
      assert (Ef : firstn (length lits) (lits ++ rest) = lits /\ skipn (length lits) (lits ++ rest) = rest).
      { rewrite firstn_app, firstn_all, Nat.sub_diag, skipn_app, skipn_all, Nat.sub_diag. cbn [firstn skipn app]. now rewrite app_nil_r. }
      destruct Ef as [Ef1 Ef2].
      destruct (N.ltb_spec (b - 17) 4).
      * destruct (N.ltb_spec (blen lits + blen rest) (b - 17 + 3)); [lia|]. destruct (N.ltb_spec cap (b - 17)); [lia|].
        rewrite copy_in_ok by (rewrite ?blen_app, ?blen_nil; lia). cbn [rbind]. rewrite El, Ef1, Ef2. cbn [app].
        rewrite N.min_l in Hs by lia. apply decode_complete; [exact Hs|exact Hcap|lia|cbn [length]; rewrite app_length; lia].
      * destruct (N.ltb_spec cap (b - 17)); [lia|]. destruct (N.ltb_spec (blen lits + blen rest) (b - 17 + 3)); [lia|].
        rewrite copy_in_ok by (rewrite ?blen_app, ?blen_nil; lia). cbn [rbind]. rewrite El, Ef1, Ef2. cbn [app].
        rewrite N.min_r in Hs by lia. apply decode_complete; [exact Hs|exact Hcap|lia|cbn [length]; rewrite app_length; lia].
    + pose proof (stream_length _ _ _ _ Hs) as [L1 L2].
      destruct (N.ltb_spec (blen (b :: rest)) 3); [lia|]. destruct (N.ltb_spec 17 b); [lia|].
      apply decode_complete; [exact Hs|exact Hcap|exact Hlim|lia].
Qed.
Print Assumptions C57_decompress_follows_format.

(** A stream made by hand with most instruction kinds, and its expansion. *)
Example C57_example :
  decompress 100 [18; 9;  0 + 1; 0; 5;  64 + 4 + 0; 0;  3; 1; 2; 3; 4; 5; 6;  33; 8; 0;  17; 0; 0] =
    Val (Decoded ([9] ++ [9; 9] ++ [5] ++ [9; 5; 9] ++ [1; 2; 3; 4; 5; 6] ++ [4; 5; 6])).
Proof. vm_compute. reflexivity. Qed.
Example C57_example_is_stream :
  lzo1x [18; 9; 1; 0; 5; 17; 0; 0] [9; 9; 9; 5].
Proof.
  apply C57_decompress_follows_format with (buffer := 4).
  - apply is_bytesb_spec. reflexivity.
  - reflexivity.
  - vm_compute. reflexivity.
Qed.
