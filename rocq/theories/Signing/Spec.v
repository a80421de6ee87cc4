(** Specification vocabulary for C09-C11. *)
From Verif Require Import Base.Tactics Base.Bytes Io.Model Io.Spec Signing.Fermat Signing.Model.
Local Open Scope N_scope.

(** A name a cstring field can hold. *)
Definition storable (s : bytes) : Prop := no_nul s /\ utf8_valid s = true.

(** [v] fits in [k] bytes. *)
Definition fits (v k : N) : Prop := v < 256 ^ k.

(** Every number of the key fits the field its declared bit length gives it. *)
Definition private_fits (k : private_key) : Prop :=
  storable (k_authority k) /\ k_length k < 2 ^ 32 /\ fits (k_exponent k) 4 /\
  fits (k_n k) (k_length k / 8) /\ fits (k_p k) (k_length k / 16) /\ fits (k_q k) (k_length k / 16) /\
  fits (k_dp k) (k_length k / 16) /\ fits (k_dq k) (k_length k / 16) /\ fits (k_qinv k) (k_length k / 16) /\
  fits (k_d k) (k_length k / 8).
Definition public_fits (k : public_key) : Prop :=
  storable (p_authority k) /\ p_length k < 2 ^ 32 /\ fits (p_exponent k) 4 /\ fits (p_n k) (p_length k / 8).
Definition sign_fits (s : bisign) : Prop :=
  storable (s_authority s) /\ s_length s < 2 ^ 32 /\ fits (s_exponent s) 4 /\
  fits (s_n s) (s_length s / 8) /\ fits (s_sig1 s) (s_length s / 8) /\
  fits (s_sig2 s) (s_length s / 8) /\ fits (s_sig3 s) (s_length s / 8).

(** An RSA key: two distinct primes whose product is the modulus, of the declared bit length; exponents
    inverse to each other modulo p - 1 and q - 1. 304 bits is the least size the padding leaves room for
    (HEMTT uses 1024). *)
Definition rsa_key (k : private_key) : Prop :=
  prime_N (k_p k) /\ prime_N (k_q k) /\ k_p k <> k_q k /\ k_n k = k_p k * k_q k /\
  (exists a, k_exponent k * k_d k = 1 + a * (k_p k - 1)) /\
  (exists b, k_exponent k * k_d k = 1 + b * (k_q k - 1)) /\
  304 <= k_length k /\ 2 ^ (k_length k - 1) <= k_n k.
