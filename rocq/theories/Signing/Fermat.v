(** Fermat's little theorem over [N], by the binomial theorem. *)
From Verif Require Import Base.Tactics.
Local Open Scope N_scope.

(** Primality, in words: greater than one, and only divisible by one and itself. *)
Definition prime_N (p : N) : Prop :=
  1 < p /\ forall d k : N, p = d * k -> d = 1 \/ d = p.

(** Binomial coefficients by Pascal's rule. *)
Fixpoint binom (n k : nat) : N :=
  match n, k with
  | _, O => 1
  | O, S _ => 0
  | S n', S k' => binom n' k' + binom n' k
  end.

Lemma binom_0_r n : binom n 0 = 1.
Proof. destruct n; reflexivity. Qed.
Lemma binom_SS n k : binom (S n) (S k) = binom n k + binom n (S k).
Proof. reflexivity. Qed.
Lemma binom_gt n : forall k, (n < k)%nat -> binom n k = 0.
Proof.
  induction n as [|n IH]; intros k H; destruct k as [|k]; try lia; [reflexivity|].
  rewrite binom_SS, !IH by lia. reflexivity.
Qed.
Lemma binom_diag n : binom n n = 1.
Proof. induction n as [|n IH]; [reflexivity|]. rewrite binom_SS, IH, binom_gt by lia. reflexivity. Qed.

(** k C(n, k) = n C(n-1, k-1). *)
Lemma binom_absorb n : forall k, N.of_nat (S k) * binom (S n) (S k) = N.of_nat (S n) * binom n k.
Proof.
  induction n as [|n IH]; intro k.
  - destruct k as [|k]; [reflexivity|]. rewrite binom_SS. rewrite !binom_gt by lia. lia.
  - destruct k as [|k].
    + rewrite binom_SS, binom_0_r. pose proof (IH O) as E. rewrite binom_0_r in E. lia.
    + rewrite (binom_SS (S n)). pose proof (IH k) as E1. pose proof (IH (S k)) as E2.
      rewrite (binom_SS n k) in *. nia.
Qed.

(** Partial sums of the binomial expansion of (a + 1)^n. *)
Fixpoint bsum (a : N) (n m : nat) : N :=
  match m with
  | O => binom n 0
  | S m' => bsum a n m' + binom n m * a ^ N.of_nat m
  end.

Lemma bsum_step a n m : bsum a (S n) (S m) = bsum a n (S m) + a * bsum a n m.
Proof.
  induction m as [|m IH].
  - cbn [bsum]. rewrite binom_SS, !binom_0_r. change (N.of_nat 1) with 1. rewrite N.pow_1_r. lia.
  - replace (bsum a (S n) (S (S m))) with (bsum a (S n) (S m) + binom (S n) (S (S m)) * a ^ N.of_nat (S (S m))) by reflexivity.
    rewrite IH. rewrite binom_SS.
    replace (bsum a n (S (S m))) with (bsum a n (S m) + binom n (S (S m)) * a ^ N.of_nat (S (S m))) by reflexivity.
    replace (a * bsum a n (S m)) with (a * bsum a n m + binom n (S m) * a ^ N.of_nat (S (S m))); [lia|].
    cbn [bsum]. rewrite (Nat2N.inj_succ (S m)), N.pow_succ_r'. lia.
Qed.

Lemma binomial a n : bsum a n n = (a + 1) ^ N.of_nat n.
Proof.
  induction n as [|n IH]; [reflexivity|]. rewrite bsum_step.
  cbn [bsum]. rewrite binom_gt by lia. rewrite N.mul_0_l, N.add_0_r. rewrite IH, Nat2N.inj_succ, N.pow_succ_r'. lia.
Qed.

Lemma prime_gcd p k : prime_N p -> 0 < k -> k < p -> N.gcd p k = 1.
Proof.
  intros [H1 Hp] Hk Hlt. destruct (N.gcd_divide_l p k) as [x Hx].
  destruct (Hp (N.gcd p k) x) as [?|E]; [lia|auto|]. exfalso.
  assert (D : (p | k)) by (rewrite <- E; apply N.gcd_divide_r). apply N.divide_pos_le in D; lia.
Qed.

Lemma prime_binom p k : prime_N (N.of_nat p) -> (0 < k < p)%nat -> binom p k mod N.of_nat p = 0.
Proof.
  intros Hp Hk. destruct k as [|k]; [lia|]. destruct p as [|p]; [lia|].
  apply N.mod_divide; [lia|]. apply (N.gauss _ (N.of_nat (S k))).
  - rewrite binom_absorb. exists (binom p k). lia.
  - apply prime_gcd; [auto|lia|lia].
Qed.

Lemma bsum_mod a p m : prime_N (N.of_nat p) -> (m < p)%nat -> bsum a p m mod N.of_nat p = 1.
Proof.
  intros Hp. assert (1 < N.of_nat p) by (destruct Hp; auto). induction m as [|m IH]; intro Hm.
  - cbn [bsum]. rewrite binom_0_r. apply N.mod_small. auto.
  - cbn [bsum]. rewrite N.add_mod by lia. rewrite IH by lia.
    rewrite (N.mul_mod (binom p (S m))), prime_binom by (auto; lia).
    rewrite N.mul_0_l, N.mod_0_l, N.add_0_r by lia. apply N.mod_small. lia.
Qed.

Theorem fermat_N p a : prime_N p -> a ^ p mod p = a mod p.
Proof.
  intro Hp. assert (H1 : 1 < p) by (destruct Hp; auto).
  rewrite <- (N2Nat.id p) in Hp. destruct (N.to_nat p) as [|q] eqn:Eq; [lia|].
  assert (Ep : p = N.of_nat (S q)) by lia. clear Eq. rewrite Ep in *.
  induction a as [|a IH] using N.peano_ind.
  - rewrite N.pow_0_l by lia. reflexivity.
  - rewrite <- N.add_1_r, <- binomial. cbn [bsum]. rewrite binom_diag, N.mul_1_l.
    rewrite N.add_mod by lia. rewrite bsum_mod by (auto; lia). rewrite IH.
    rewrite (N.add_comm a). rewrite N.add_mod_idemp_r by lia. reflexivity.
Qed.
