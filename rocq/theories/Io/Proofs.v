From Verif Require Import Base.Tactics Base.Bytes Io.Model Io.Spec.
Local Open Scope N_scope.

Lemma land127 x : N.land x 127 = x mod 128.
Proof. change 127 with (N.ones 7). rewrite N.land_ones. reflexivity. Qed.

Lemma lor128 g : g < 128 -> N.lor 128 g = 128 + g.
Proof.
  intro H. rewrite N.lor_comm, N.add_comm.
  rewrite <- N.lxor_lor, <- N.add_nocarry_lxor; auto; apply N.bits_inj_0; intro n;
    rewrite N.land_spec; change 128 with (2 ^ 7);
    (destruct (N.eq_dec n 7) as [->|Hn];
      [rewrite <- (N.mod_small g (2 ^ 7)) by (cbn; lia); rewrite N.mod_pow2_bits_high by lia; reflexivity
      |rewrite N.pow2_bits_false by auto; now rewrite andb_false_r]).
Qed.

Lemma step127 x : N.shiftr (N.ldiff x 127) 7 = x / 128.
Proof.
  rewrite N.shiftr_div_pow2. change (2 ^ 7) with 128. change 127 with (N.ones 7).
  rewrite N.ldiff_ones_r, N.shiftl_mul_pow2, N.shiftr_div_pow2. change (2 ^ 7) with 128.
  rewrite N.div_mul; lia.
Qed.

(** Or-ing in a group above the bits already read is addition. *)
Lemma lor_add acc v k : acc < 2 ^ k -> N.lor acc (v * 2 ^ k) = acc + v * 2 ^ k.
Proof.
  intro H. rewrite <- N.lxor_lor, <- N.add_nocarry_lxor; auto;
  (apply N.bits_inj_0; intro n; rewrite N.land_spec;
   destruct (N.lt_ge_cases n k) as [Hn|Hn];
   [rewrite N.mul_pow2_bits_low by auto; apply andb_false_r
   |rewrite <- (N.mod_small acc (2 ^ k)) by auto; rewrite N.mod_pow2_bits_high by auto; reflexivity]).
Qed.

Lemma pow2_5 i : i < 5 -> (2 ^ (i * 7) = 1 \/ 2 ^ (i * 7) = 128 \/ 2 ^ (i * 7) = 16384 \/
  2 ^ (i * 7) = 2097152 \/ 2 ^ (i * 7) = 268435456).
Proof.
  intro H. assert (i = 0 \/ i = 1 \/ i = 2 \/ i = 3 \/ i = 4) as [->|[->|[->|[->| ->]]]] by lia; cbn; auto.
Qed.

Lemma read_write_go fuel i acc v r suffix :
  i < 5 -> acc < 2 ^ (i * 7) -> v * 2 ^ (i * 7) < 4294967296 ->
  write_cint_go fuel v = Some r ->
  read_cint_go i acc (r ++ suffix) = IntOk (acc + v * 2 ^ (i * 7)) suffix.
Proof.
  revert i acc v r; induction fuel as [|f IH]; intros i acc v r Hi Hacc Hv Hw; [discriminate|].
  cbn [write_cint_go] in Hw.
  destruct (127 <? v) eqn:E.
  - apply N.ltb_lt in E. rewrite step127 in Hw.
    destruct (write_cint_go f (v / 128)) as [r'|] eqn:Ef; [|discriminate].
    rewrite land127, lor128 in Hw by (apply N.mod_lt; lia).
    apply Some_inj in Hw; subst r. cbn [app read_cint_go].
    destruct (32 <=? i * 7) eqn:Ei; [apply N.leb_le in Ei; lia|].
    rewrite land127. replace ((128 + v mod 128) mod 128) with (v mod 128)
      by lia.
    rewrite N.shiftl_mul_pow2.
    assert (Hsmall : v mod 128 * 2 ^ (i * 7) < 4294967296).
    { assert (v mod 128 <= v) by (apply N.mod_le; lia). nia. }
    rewrite (N.mod_small (_ * _)) by auto. rewrite lor_add by auto.
    destruct (128 + v mod 128 <? 128) eqn:E2; [apply N.ltb_lt in E2; lia|].
    assert (Hpow : 2 ^ ((i + 1) * 7) = 128 * 2 ^ (i * 7)).
    { replace ((i + 1) * 7) with (7 + i * 7) by lia. rewrite N.pow_add_r. reflexivity. }
    assert (Hdm : v = 128 * (v / 128) + v mod 128) by (apply N.div_mod; lia).
    rewrite (IH (i + 1) _ (v / 128) r').
    + rewrite Hpow. f_equal. rewrite Hdm at 3. lia.
    + destruct (N.eq_dec i 4) as [->|]; [|lia]. cbn in Hv. lia.
    + rewrite Hpow. assert (v mod 128 < 128) by (apply N.mod_lt; lia). nia.
    + rewrite Hpow. nia.
    + exact Ef.
  - apply N.ltb_ge in E. apply Some_inj in Hw; subst r. cbn [app read_cint_go].
    destruct (32 <=? i * 7) eqn:Ei; [apply N.leb_le in Ei; lia|].
    rewrite land127, (N.mod_small v 128), N.shiftl_mul_pow2, N.mod_small, lor_add by (auto; lia).
    destruct (v <? 128) eqn:E2; [reflexivity|apply N.ltb_ge in E2; lia].
Qed.

Lemma write_cint_total x : x < 4294967296 -> exists r, write_compressed_int x = Some r.
Proof.
  intro H. unfold write_compressed_int.
  do 5 (cbn [write_cint_go]; rewrite ?step127;
    match goal with |- context [127 <? ?v] => destruct (127 <? v) eqn:?; [|eauto] end).
  all: rewrite ?step127 in *; repeat match goal with H : (_ <? _) = true |- _ => apply N.ltb_lt in H end; try lia.
  all: repeat match goal with |- context [write_cint_go ?f ?v] => destruct (write_cint_go f v) eqn:?; eauto end.
Qed.

Lemma roundtrip x suffix : x < 4294967296 ->
  exists r, write_compressed_int x = Some r /\ read_compressed_int (r ++ suffix) = IntOk x suffix.
Proof.
  intro H. destruct (write_cint_total x H) as [r Hr]. exists r. split; [auto|].
  unfold read_compressed_int. rewrite (read_write_go 5 0 0 x r) by (auto; cbn; lia).
  f_equal. cbn [N.mul N.pow]. lia.
Qed.

Lemma len_matches fuel x r : write_cint_go fuel x = Some r -> cint_len_go fuel x = Some (blen r).
Proof.
  revert x r; induction fuel as [|f IH]; intros x r H; [discriminate|].
  cbn [write_cint_go cint_len_go] in *. destruct (127 <? x).
  - destruct (write_cint_go f _) as [r'|] eqn:E; [|discriminate]. apply Some_inj in H; subst r.
    rewrite (IH _ _ E). rewrite blen_cons. f_equal. lia.
  - apply Some_inj in H; subst r. reflexivity.
Qed.

Lemma write_is_leb fuel x r : write_cint_go fuel x = Some r -> leb128 r x.
Proof.
  revert x r; induction fuel as [|f IH]; intros x r H; [discriminate|].
  cbn [write_cint_go] in H. destruct (127 <? x) eqn:E.
  - rewrite step127 in H. destruct (write_cint_go f (x / 128)) as [r'|] eqn:Ef; [|discriminate].
    rewrite land127, lor128 in H by (apply N.mod_lt; lia). apply Some_inj in H; subst r.
    replace x with (x mod 128 + 128 * (x / 128)) at 2 by lia.
    constructor; [apply N.mod_lt; lia|]. eauto.
  - apply Some_inj in H; subst r. constructor. apply N.ltb_ge in E. lia.
Qed.

Lemma write_minimal fuel x r l : write_cint_go fuel x = Some r -> leb128 l x -> (length r <= length l)%nat.
Proof.
  revert x r l; induction fuel as [|f IH]; intros x r l H Hl; [discriminate|].
  cbn [write_cint_go] in H. destruct (127 <? x) eqn:E.
  - rewrite step127 in H. destruct (write_cint_go f (x / 128)) as [r'|] eqn:Ef; [|discriminate].
    apply Some_inj in H; subst r. cbn [length]. apply N.ltb_lt in E.
    inversion Hl as [b Hb|g s v Hg Hs]; subst; [lia|]. cbn [length].
    apply le_n_S. eapply IH; eauto. replace ((g + 128 * v) / 128) with v by lia. auto.
  - apply Some_inj in H; subst r. inversion Hl; subst; cbn [length]; lia.
Qed.

Lemma write_length_bounds fuel x r : write_cint_go fuel x = Some r -> (1 <= length r <= fuel)%nat.
Proof.
  revert x r; induction fuel as [|f IH]; intros x r H; [discriminate|].
  cbn [write_cint_go] in H. destruct (127 <? x).
  - destruct (write_cint_go f _) as [r'|] eqn:E; [|discriminate]. apply Some_inj in H; subst r.
    apply IH in E. cbn [length]. lia.
  - apply Some_inj in H; subst r. cbn. lia.
Qed.

Lemma until_nul_app s suffix : no_nul s -> until_nul (s ++ 0 :: suffix) = (s, suffix).
Proof.
  induction s as [|b s IH]; intro H; cbn; [reflexivity|].
  destruct (b =? 0) eqn:E; [apply N.eqb_eq in E; subst; exfalso; apply H; left; auto|].
  rewrite IH; [auto|]. intro Hin. apply H. right; auto.
Qed.

Lemma until_nul_inv l x rest :
  until_nul l = (x, rest) -> no_nul x /\ (l = x ++ 0 :: rest \/ (l = x /\ rest = [])).
Proof.
  revert x rest; induction l as [|b r IH]; intros x rest H; cbn in H.
  - injection H as <- <-. split; [intros []|auto].
  - destruct (b =? 0) eqn:E.
    + injection H as <- <-. apply N.eqb_eq in E; subst. split; [intros []|auto].
    + destruct (until_nul r) as [y rest'] eqn:Ey. injection H as <- <-.
      destruct (IH _ _ eq_refl) as [Hn Hc]. apply N.eqb_neq in E. split.
      * intros [Hb|Hin]; [auto|]. now apply Hn.
      * destruct Hc as [->|[-> ->]]; auto.
Qed.

Lemma read_write_cstring s suffix : no_nul s -> utf8_valid s = true ->
  read_cstring (write_cstring s ++ suffix) = (s, suffix).
Proof.
  intros H Hu. unfold read_cstring, write_cstring. rewrite <- app_assoc. cbn [app].
  rewrite until_nul_app by auto. now rewrite Hu.
Qed.

Lemma ascii_utf8 s : Forall (fun b => b < 128) s -> utf8_valid s = true.
Proof.
  unfold utf8_valid. induction 1 as [|b s Hb Hs IH]; cbn [utf8_go]; [auto|].
  apply N.ltb_lt in Hb. now rewrite Hb.
Qed.

Lemma utf8_go_app k lo hi a b :
  utf8_go k lo hi a = true -> utf8_go k lo hi (a ++ b) = utf8_valid b.
Proof.
  revert k lo hi; induction a as [|x a IH]; intros k lo hi H; cbn [app utf8_go] in *.
  - destruct k; [destruct b; reflexivity|discriminate].
  - destruct k.
    + repeat (match type of H with context [if ?c then _ else _] => destruct c end; [first [apply IH; exact H | discriminate H]|]).
      discriminate.
    + destruct ((lo <=? x) && (x <=? hi)); [|discriminate]. auto.
Qed.

(** A string containing a NUL reads back as its part before the first NUL. *)
Lemma read_write_cstring_nul a b suffix : no_nul a -> utf8_valid a = true ->
  read_cstring (write_cstring (a ++ 0 :: b) ++ suffix) = (a, b ++ 0 :: suffix).
Proof.
  intros H Hu. unfold read_cstring, write_cstring. rewrite <- !app_assoc. cbn [app].
  rewrite <- ?app_assoc. cbn [app]. rewrite until_nul_app by auto. now rewrite Hu.
Qed.

Lemma read_cstring_invalid a suffix : no_nul a -> utf8_valid a = false ->
  read_cstring (write_cstring a ++ suffix) = ([], suffix).
Proof.
  intros H Hu. unfold read_cstring, write_cstring. rewrite <- !app_assoc. cbn [app].
  rewrite until_nul_app by auto. now rewrite Hu.
Qed.
