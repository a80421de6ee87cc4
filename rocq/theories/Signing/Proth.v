(** Proth's criterion, used only to exhibit a concrete RSA key that meets the hypotheses of C10. *)
From Verif Require Import Base.Tactics Signing.Fermat Signing.Model Signing.Spec Signing.Proofs.
Local Open Scope N_scope.

(** Trial division decides primality, so no classical reasoning is needed. *)
Lemma divisor_dec (m : nat) n : 1 < n ->
  (forall d, 1 < d -> d < n -> (N.to_nat d <= m)%nat -> ~ (d | n)) \/
  (exists d, 1 < d /\ d < n /\ (d | n)).
Proof.
  intro Hn. induction m as [|m [IH|IH]].
  - left. intros. lia.
  - destruct (N.eq_dec (n mod N.of_nat (S m)) 0) as [E|E].
    + destruct (N.ltb_spec 1 (N.of_nat (S m))) as [H1|H1], (N.ltb_spec (N.of_nat (S m)) n) as [H2|H2].
      * right. exists (N.of_nat (S m)). split; [auto|]. split; [auto|]. apply N.mod_divide; [lia|auto].
      * left. intros d Hd1 Hd2 Hdm. destruct (N.eq_dec d (N.of_nat (S m))); [lia|]. apply IH; lia.
      * left. intros d Hd1 Hd2 Hdm. apply IH; lia.
      * left. intros d Hd1 Hd2 Hdm. apply IH; lia.
    + left. intros d Hd1 Hd2 Hdm. destruct (N.eq_dec d (N.of_nat (S m))) as [->|].
      * intro D. apply N.mod_divide in D; [auto|lia].
      * apply IH; lia.
  - right. exact IH.
Qed.

Lemma prime_factor n : 1 < n -> exists p, prime_N p /\ (p | n).
Proof.
  induction n as [n IH] using (well_founded_induction N.lt_wf_0). intro Hn.
  destruct (divisor_dec (N.to_nat n) n Hn) as [H|(d & H1 & H2 & D)].
  - exists n. split; [|apply N.divide_refl]. split; [auto|]. intros d k E.
    destruct (N.eq_dec d 1); [auto|]. destruct (N.eq_dec d n); [auto|]. exfalso.
    assert (d <> 0) by (intros ->; lia). assert (k <> 0) by (intros ->; lia). assert (d <= n) by nia.
    apply (H d); try lia. exists k. lia.
  - destruct (IH d H2 H1) as (p & Hp & Dp). exists p. split; [auto|]. now apply N.divide_trans with d.
Qed.

Lemma mod_divide_mod a p n : p <> 0 -> n <> 0 -> (p | n) -> (a mod n) mod p = a mod p.
Proof.
  intros Hp Hn [k ->]. pose proof (N.div_mod a (k * p) Hn) as E.
  rewrite E at 2. rewrite N.add_comm.
  replace (k * p * (a / (k * p))) with ((k * (a / (k * p))) * p) by lia. now rewrite N.mod_add.
Qed.

Lemma pow_one_mod b e p : 1 < p -> b mod p = 1 -> b ^ e mod p = 1.
Proof. intros Hp H. rewrite <- pow_mod_pow by lia. rewrite H, N.pow_1_l. apply N.mod_small. lia. Qed.

Lemma fermat_unit p b : prime_N p -> b mod p <> 0 -> b ^ (p - 1) mod p = 1.
Proof.
  intros Hp Hb. assert (Hp1 : 1 < p) by (destruct Hp; auto).
  pose proof (fermat_N p b Hp) as F.
  assert (E : b ^ p = b * b ^ (p - 1)).
  { replace p with (1 + (p - 1)) at 1 by (clear - Hp1; lia). now rewrite N.pow_add_r, N.pow_1_r. }
  rewrite E in F. clear E.
  assert (Hb0 : b <> 0) by (intros ->; apply Hb, N.mod_0_l; lia).
  assert (Hpos : b ^ (p - 1) <> 0) by (apply N.pow_nonzero; auto).
  remember (b ^ (p - 1)) as c eqn:Ec. clear Ec.
  assert (Hle : b <= b * c) by nia.
  apply (mod_eq_divide _ _ p) in F; [|lia|lia].
  replace (b * c - b) with (b * (c - 1)) in F by (rewrite N.mul_sub_distr_l; lia).
  assert (Hg : N.gcd p b = 1).
  { destruct (N.gcd_divide_l p b) as [x Hx]. destruct Hp as [_ Hp].
    destruct (Hp (N.gcd p b) x) as [?|Eg]; [lia|auto|]. exfalso.
    assert (Db : (p | b)) by (rewrite <- Eg; apply N.gcd_divide_r).
    apply N.mod_divide in Db; [auto|lia]. }
  apply N.gauss in F; [|auto]. destruct F as [x Hx].
  replace c with (1 + x * p) by lia. rewrite N.mod_add by lia. apply N.mod_small. lia.
Qed.

Lemma minus_one_sq p : 1 < p -> (p - 1) ^ 2 mod p = 1.
Proof.
  intro Hp. rewrite N.pow_2_r. assert (exists q, p = q + 2) as [q ->] by (exists (p - 2); lia).
  replace ((q + 2 - 1) * (q + 2 - 1)) with (1 + q * (q + 2)).
  - rewrite N.mod_add by lia. apply N.mod_small. lia.
  - replace (q + 2 - 1) with (q + 1) by lia. lia.
Qed.

Lemma order_two p b k : prime_N p -> p <> 2 -> b ^ (2 ^ k) mod p = p - 1 ->
  forall j, j <= k + 1 -> (2 ^ j | p - 1).
Proof.
  intros Hp Hodd Hc. assert (Hp1 : 1 < p) by (destruct Hp; auto).
  assert (H2k : 2 ^ k <> 0) by (apply N.pow_nonzero; lia).
  assert (Hsq : b ^ (2 ^ k * 2) mod p = 1).
  { rewrite N.pow_mul_r. rewrite <- pow_mod_pow by (clear - Hp1; lia). rewrite Hc. now apply minus_one_sq. }
  assert (Hb1 : b ^ (p - 1) mod p = 1).
  { apply fermat_unit; [auto|]. intro Z. rewrite <- pow_mod_pow in Hc by (clear - Hp1; lia).
    rewrite Z, N.pow_0_l in Hc by auto. rewrite N.mod_0_l in Hc; clear - Hp1 Hc; lia. }
  induction j as [|j IH] using N.peano_ind; intro Hj; [rewrite N.pow_0_r; apply N.divide_1_l|].
  destruct IH as [t Ht]; [clear - Hj; lia|].
  destruct (N.Even_or_Odd t) as [[s Es]|[s Es]].
  - exists s. rewrite N.pow_succ_r', Ht, Es. remember (2 ^ j) as w. clear. lia.
  - exfalso.
    assert (E1 : b ^ (2 ^ k * t) mod p = 1).
    { replace (2 ^ k * t) with ((p - 1) * 2 ^ (k - j)).
      - rewrite N.pow_mul_r. now apply pow_one_mod.
      - rewrite Ht, <- N.mul_assoc, <- N.pow_add_r. replace (j + (k - j)) with k by (clear - Hj; lia).
        apply N.mul_comm. }
    assert (E2 : b ^ (2 ^ k * t) mod p = p - 1).
    { rewrite Es. replace (2 ^ k * (2 * s + 1)) with ((2 ^ k * 2) * s + 2 ^ k) by (remember (2 ^ k) as w; clear; lia).
      rewrite N.pow_add_r, N.mul_mod by (clear - Hp1; lia). rewrite Hc, (N.pow_mul_r b), pow_one_mod by auto.
      rewrite N.mul_1_l. apply N.mod_small. clear - Hp1; lia. }
    rewrite E1 in E2. clear - E2 Hp1 Hodd. lia.
Qed.

Lemma proth_factor N0 h k a p : N0 = h * 2 ^ (k + 1) + 1 ->
  a ^ (h * 2 ^ k) mod N0 = N0 - 1 -> prime_N p -> (p | N0) -> (2 ^ (k + 1) | p - 1).
Proof.
  intros EN Ha Hp D. assert (Hp1 : 1 < p) by (destruct Hp; auto).
  assert (HN : N0 <> 0) by (rewrite EN; remember (2 ^ (k + 1)) as w; clear; lia).
  apply (order_two p (a ^ h) k); [auto| | |apply N.le_refl].
  - intros ->. destruct D as [x Hx]. rewrite EN in Hx. rewrite N.pow_add_r, N.pow_1_r in Hx.
    remember (2 ^ k) as w. assert (E : h * (w * 2) = 2 * (h * w)) by (clear; lia).
    rewrite E in Hx. remember (h * w) as z. clear - Hx. lia.
  - rewrite <- N.pow_mul_r. rewrite <- (mod_divide_mod _ p N0) by (auto; clear - Hp1; lia). rewrite Ha.
    destruct D as [x Hx]. clear EN Ha. assert (x <> 0) by (intros ->; lia).
    replace (N0 - 1) with ((p - 1) + (x - 1) * p) by nia. rewrite N.mod_add by lia. apply N.mod_small. lia.
Qed.

Theorem proth N0 h k a : N0 = h * 2 ^ (k + 1) + 1 -> h < 2 ^ (k + 1) -> h <> 0 ->
  modpow a (h * 2 ^ k) N0 = Some (N0 - 1) -> prime_N N0.
Proof.
  intros EN Hh Hh0 Ha. rewrite modpow_spec in Ha by lia. apply Some_inj in Ha.
  assert (P : 2 ^ (k + 1) <> 0) by (apply N.pow_nonzero; lia).
  split; [nia|]. intros d m E.
  destruct (N.eq_dec d 1) as [|Hd]; [auto|]. destruct (N.eq_dec m 1) as [->|Hm]; [right; lia|]. exfalso.
  assert (1 < d) by nia. assert (1 < m) by nia.
  assert (B : forall x, 1 < x -> (x | N0) -> 2 ^ (k + 1) + 1 <= x).
  { intros x Hx Dx. destruct (prime_factor x Hx) as (p & Hp & Dp).
    assert (D : (2 ^ (k + 1) | p - 1)) by (eapply proth_factor; eauto; now apply N.divide_trans with x).
    assert (1 < p) by (destruct Hp; auto). apply N.divide_pos_le in D; [|lia]. apply N.divide_pos_le in Dp; lia. }
  assert (2 ^ (k + 1) + 1 <= d) by (apply B; [auto|exists m; lia]).
  assert (2 ^ (k + 1) + 1 <= m) by (apply B; [auto|exists d; lia]).
  nia.
Qed.
