From Coq Require Import String.
From Verif Require Import Base.Tactics Base.Bytes Base.Ascii Base.Sort Base.Text Config.RapModel Common.VersionModel Config.PatchModel Config.PatchSpec.
Local Open Scope N_scope.
Local Open Scope list_scope.

(** ** Rounding *)
Lemma round24_near : forall p, apart (round24 p) p * 2 ^ 24 <= p.
Proof.
  intros p. unfold round24, apart. destruct (N.leb_spec (N.size p) 24) as [Hs|Hs]; [rewrite N.sub_diag; lia|].
  destruct (N.eq_dec p 0) as [->|Hp]; [cbn in Hs; lia|].
  assert (Hlow : 2 ^ (N.size p - 1) <= p).
  { rewrite N.size_log2 by exact Hp. replace (N.succ (N.log2 p) - 1) with (N.log2 p) by lia. apply N.log2_spec. lia. }
  set (k := N.size p - 24) in *. assert (Ek : N.size p - 1 = k + 23) by lia. rewrite Ek, N.pow_add_r in Hlow.
  assert (Hu : 1 <= 2 ^ k) by (pose proof (N.pow_nonzero 2 k ltac:(lia)); lia).
  assert (Hk2 : exists h, 2 ^ k = 2 * h) by (exists (2 ^ (k - 1)); rewrite <- N.pow_succ_r by lia; f_equal; lia).
  destruct Hk2 as [h Eh]. set (u := 2 ^ k) in *. clearbody u.
  pose proof (N.div_mod p u ltac:(lia)) as Ed. pose proof (N.mod_lt p u ltac:(lia)) as Hm. cbv zeta.
  set (q := p / u) in *. set (r := p mod u) in *. clearbody q r. change (2 ^ 23) with 8388608 in Hlow. change (2 ^ 24) with 16777216.
  clearbody k. clear Hs Ek.
  assert (Eq : (q + 1) * u = u * q + u) by ring. assert (Eq' : q * u = u * q) by ring. set (uq := u * q) in *. clearbody uq.
  destruct (N.ltb_spec (2 * r) u) as [Hr|Hr]; [rewrite Eq'; lia|].
  destruct (N.ltb_spec u (2 * r)) as [Hr'|Hr']; [rewrite Eq; lia|].
  destruct (N.even q); [rewrite Eq'|rewrite Eq]; lia.
Qed.

Lemma bits_steps : forall bits x, f32_bits bits x -> steps bits = x /\ exponent_of bits <> 255 /\ sign_of bits = 0.
Proof.
  intros bits x [(Hb & ->)|(e & m & He & Hm & -> & ->)]; unfold steps, exponent_of, mantissa_of, sign_of;
    change (2 ^ 31) with 2147483648; change (2 ^ 23) with 8388608 in *.
  - rewrite (N.div_small bits 8388608), (N.mod_small bits 8388608), (N.div_small bits 2147483648) by lia. cbn. repeat split; lia.
  - rewrite N.div_add_l, (N.div_small m) by lia. rewrite N.add_0_r, (N.mod_small e) by lia.
    rewrite N.add_comm, N.mod_add, (N.mod_small m) by lia. rewrite N.div_small by lia.
    destruct (N.eqb_spec e 0) as [E|E]; [lia|]. repeat split; lia.
Qed.

(** What is nearest is near enough. *)
Lemma nearest_near : forall x X Y, X < 131072 -> Y < 100 -> nearest_to_hundredths x (100 * X + Y) ->
  exists w, one = 16777216 * w /\ 0 < w /\ apart (100 * x) ((100 * X + Y) * one) <= 6553600 * w /\ (Y = 0 -> x = X * one).
Proof.
  intros x X Y HX HY (Hx & Hn). exists (2 ^ 125). split; [reflexivity|]. split; [reflexivity|].
  fold one in Hn. assert (Eo : one = 16777216 * 2 ^ 125) by reflexivity. split.
  - (** The nearest 128th. *)
    set (m := ((100 * X + Y) * 128 + 50) / 100).
    assert (Hm : m < 2 ^ 24 /\ 100 * m <= (100 * X + Y) * 128 + 50 /\ (100 * X + Y) * 128 <= 100 * m + 50).
    { pose proof (N.div_mod ((100 * X + Y) * 128 + 50) 100 ltac:(lia)) as E. pose proof (N.mod_lt ((100 * X + Y) * 128 + 50) 100 ltac:(lia)). fold m in E.
      change (2 ^ 24) with 16777216. split; [|lia]. lia. }
    destruct Hm as (Hm1 & Hm2 & Hm3). eapply N.le_trans; [apply (Hn (m * 2 ^ 142))|].
    { exists m, 142. split; [exact Hm1|]. split; [lia|reflexivity]. }
    assert (E2 : 2 ^ 142 = 131072 * 2 ^ 125) by reflexivity. rewrite Eo, E2. generalize (2 ^ 125) as w. intros w. unfold apart.
    replace (100 * (m * (131072 * w))) with ((100 * m) * w * 131072) by ring.
    replace ((100 * X + Y) * (16777216 * w)) with ((100 * X + Y) * 128 * w * 131072) by ring.
    set (a := 100 * m) in *. set (b := (100 * X + Y) * 128) in *. clearbody a b.
    assert (a * w <= b * w + 50 * w) by (rewrite <- N.mul_add_distr_r; apply N.mul_le_mono_r; exact Hm2).
    assert (b * w <= a * w + 50 * w) by (rewrite <- N.mul_add_distr_r; apply N.mul_le_mono_r; exact Hm3).
    set (aw := a * w) in *. set (bw := b * w) in *. clearbody aw bw. lia.
  - intros ->. assert (H := Hn (X * one)). rewrite N.add_0_r in H.
    replace (100 * (X * one)) with (100 * X * one) in H by ring.
    assert (apart (100 * X * one) (100 * X * one) = 0) by (unfold apart; lia).
    assert (apart (100 * x) (100 * X * one) <= 0).
    { rewrite <- H0. apply H. exists X, 149. split; [change (2 ^ 24) with 16777216; lia|]. split; [lia|reflexivity]. }
    unfold apart in H1. replace (100 * X * one) with (100 * (X * one)) in H1 by ring. lia.
Qed.

Lemma reads_back : forall bits x X Y, X < 131072 -> Y < 100 -> f32_bits bits x -> nearest_to_hundredths x (100 * X + Y) ->
  version_from bits = Version X Y 0 None None.
Proof.
  intros bits x X Y HX HY Hb Hn. destruct (bits_steps bits x Hb) as (Es & He & Hs). unfold version_from.
  destruct (N.eqb_spec (exponent_of bits) 255) as [E|_]; [contradiction|]. rewrite Hs, N.eqb_refl, Es.
  destruct (nearest_near x X Y HX HY Hn) as (w & Eo & Hw & Ha & Hz). clear Hn.
  assert (D : x / one = X /\ apart (100 * (x mod one)) (Y * one) <= 6553600 * w).
  { destruct (N.eq_dec Y 0) as [->|HY0].
    - rewrite (Hz eq_refl). rewrite N.div_mul, N.mod_mul by (rewrite Eo; lia). split; [reflexivity|]. unfold apart. lia.
    - assert (Hx : X * one <= x /\ x < X * one + one).
      { unfold apart in Ha. replace ((100 * X + Y) * one) with (100 * (X * one) + Y * one) in Ha by ring.
        assert (one <= Y * one) by (assert (1 * one <= Y * one) by (apply N.mul_le_mono_r; lia); lia).
        assert (Y * one <= 99 * one) by (apply N.mul_le_mono_r; lia). rewrite Eo in *. set (xo := X * (16777216 * w)) in *. set (yo := Y * (16777216 * w)) in *. clearbody xo yo. lia. }
      assert (E : x = one * X + (x - X * one)) by (rewrite (N.mul_comm one X); lia).
      assert (Hd : x / one = X) by (symmetry; apply (N.div_unique x one X (x - X * one)); [lia|exact E]).
      assert (Hm : x mod one = x - X * one) by (symmetry; apply (N.mod_unique x one X (x - X * one)); [lia|exact E]).
      split; [exact Hd|]. rewrite Hm. unfold apart in *. replace ((100 * X + Y) * one) with (100 * (X * one) + Y * one) in Ha by ring.
      set (xo := X * one) in *. set (yo := Y * one) in *. clearbody xo yo. lia. }
  destruct D as (-> & Hf). rewrite N.min_r by (change (2 ^ 32) with 4294967296; lia). f_equal.
  pose proof (round24_near (100 * (x mod one))) as Hr. set (F := 100 * (x mod one)) in *.
  assert (HF : F < 100 * one) by (unfold F; pose proof (N.mod_lt x one ltac:(rewrite Eo; lia)); lia). clearbody F.
  assert (Eh : one / 2 = 8388608 * w) by (rewrite Eo; replace (16777216 * w) with (8388608 * w * 2) by ring; apply N.div_mul; lia). rewrite Eh.
  set (R := round24 F) in *. clearbody R. change (2 ^ 24) with 16777216 in Hr. unfold apart in *. symmetry.
  apply (N.div_unique _ _ Y (R + 8388608 * w - Y * one)).
  - set (yo := Y * one) in *. clearbody yo. rewrite Eo in *. lia.
  - rewrite (N.mul_comm one Y). set (yo := Y * one) in *. clearbody yo. rewrite Eo in *. lia.
Qed.
